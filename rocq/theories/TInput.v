(** Properties C109 (encode from readers; failing readers and compressors) and C110 (the configuration functions). *)
From Verif Require Import Base Spec SpecEnc MCommon MWriter MReader MDecoder MOpMaker MHashmap MTrgtMatcher MSrcMatcher MEncInner MEncode MLevels MMerger MTranscoder MInput SpecApi
  PBase PEncode TEncode TMerge TPipe TTrunc.
Ltac Zify.zify_post_hook ::= idtac.
Arguments Z.add : simpl never.
Arguments Z.sub : simpl never.
Arguments Z.mul : simpl never.
Arguments Z.pow : simpl never.

(** What a reader would still deliver; a reader that does not fail; the reader when everything has been read. *)
Definition remaining (r : input) : list Z := drop (in_pos r) (in_data r).
Definition sound_input (r : input) : Prop := in_fail r = None /\ 0 <= in_pos r.
Definition at_end (r : input) : input := mkInput (in_data r) (in_pos r + zlen (remaining r)) None.
Definition breaks (r : input) (e : err) : Prop := exists k, in_fail r = Some (k, e) /\ k <= zlen (remaining r).
(** Compressors that do what the codecs say, whenever they succeed; and always. *)
Definition agrees (cp : compressors) (cd : codecs) : Prop :=
  (forall l d b, run_zstd cp l d = Squeezed b -> b = zstd_enc cd l d) /\ (forall o d b, run_brotli cp o d = Squeezed b -> b = brotli_enc cd o d).
Definition works (cp : compressors) (cd : codecs) : Prop :=
  (forall l d, run_zstd cp l d = Squeezed (zstd_enc cd l d)) /\ (forall o d, run_brotli cp o d = Squeezed (brotli_enc cd o d)).

(** What a writing computation [w'] with failing compressors has done, beside what [w] does with compressors that do not fail: the same; or it has stopped when a compressor failed on some data, having
    written what [w] writes before the compressed data, and what the compressor wrote; and it ends with the compressor's failure. *)
Definition stopped (cp : compressors) (cd : codecs) (w w' : W unit) : Prop :=
  exists whole part full rest, fst w' = whole ++ part /\ fst w = whole ++ full ++ rest /\
    exists s, ((exists l d, s = run_zstd cp l d /\ full = zstd_enc cd l d) \/ (exists o d, s = run_brotli cp o d /\ full = brotli_enc cd o d)) /\
      ((exists e, s = SqueezeErr part e /\ snd w' = Err e) \/ (s = SqueezePanic /\ part = [] /\ snd w' = Panic)).
Definition same_or_stopped cp cd (w w' : W unit) : Prop := w' = w \/ stopped cp cd w w'.

Lemma sos_bind {A} cp cd (w : W A) (g g' : A -> W unit) : (forall a, same_or_stopped cp cd (g a) (g' a)) -> same_or_stopped cp cd (wbind w g) (wbind w g').
Proof.
  intro H. destruct w as [o r]. destruct r as [a|e| |]; cbn [wbind]; try (left; reflexivity). destruct (H a) as [E|(wh & pt & fu & rs & E1 & E2 & s & Hs & Hf)].
  - left. rewrite E. reflexivity.
  - right. destruct (g a) as [x rx], (g' a) as [y ry]. cbn [fst snd] in *. subst x y. exists (o ++ wh), pt, fu, rs. cbn [fst snd]. split; [now rewrite app_assoc|]. split; [now rewrite <- !app_assoc|].
    exists s. split; [exact Hs|exact Hf].
Qed.
Lemma sos_then cp cd (w w' : W unit) (g g' : unit -> W unit) : same_or_stopped cp cd w w' -> (forall a, same_or_stopped cp cd (g a) (g' a)) -> same_or_stopped cp cd (wbind w g) (wbind w' g').
Proof.
  intros [E|(wh & pt & fu & rs & E1 & E2 & s & Hs & Hf)] H.
  - subst w'. now apply sos_bind.
  - right. destruct w as [x rx], w' as [y ry]. cbn [fst snd] in *. subst x y. 
    assert (X : wbind (wh ++ pt, ry) g' = (wh ++ pt, ry)). { destruct Hf as [(e & _ & ->)|(_ & _ & ->)]; reflexivity. }
    rewrite X. assert (Y : exists t, fst (wbind (wh ++ fu ++ rs, rx) g) = (wh ++ fu ++ rs) ++ t).
    { destruct rx as [a|e| |]; cbn [wbind]; try (exists []; cbn [fst]; now rewrite app_nil_r). destruct (g a) as [z rz]. exists z. reflexivity. }
    destruct Y as [t Y]. exists wh, pt, fu, (rs ++ t). cbn [fst snd]. split; [reflexivity|]. split; [rewrite Y; now rewrite <- !app_assoc|]. exists s. split; [exact Hs|exact Hf].
Qed.
Lemma sos_section m cp cd sc ops h : agrees cp cd -> same_or_stopped cp cd (section_writer m cd sc ops h) (i_section_writer m cp sc ops h).
Proof.
  intros [Hz Hb]. unfold section_writer, i_section_writer. destruct sc as [comp|]; [|left; reflexivity]. cbv zeta. apply sos_bind. intros _.
  destruct (write_ops m ops (set_comp h (algo_value comp))) as [buf r]. apply sos_bind. intros _. destruct comp as [c|l|o]; [left; reflexivity| |].
  - destruct (run_zstd cp l buf) as [b|b e|] eqn:E; cbn [squeeze_out].
    + left. rewrite (Hz _ _ _ E). reflexivity.
    + right. exists [], b, (zstd_enc cd l buf), []. cbn [fst snd app wput]. split; [reflexivity|]. split; [now rewrite app_nil_r|]. exists (run_zstd cp l buf). split; [left; now exists l, buf|left; exists e; now split].
    + right. exists [], [], (zstd_enc cd l buf), []. cbn [fst snd app wput]. split; [reflexivity|]. split; [now rewrite app_nil_r|]. exists (run_zstd cp l buf). split; [left; now exists l, buf|right; now repeat split].
  - destruct (run_brotli cp o buf) as [b|b e|] eqn:E; cbn [squeeze_out].
    + left. rewrite (Hb _ _ _ E). reflexivity.
    + right. exists [], b, (brotli_enc cd o buf), []. cbn [fst snd app wput]. split; [reflexivity|]. split; [now rewrite app_nil_r|]. exists (run_brotli cp o buf). split; [right; now exists o, buf|left; exists e; now split].
    + right. exists [], [], (brotli_enc cd o buf), []. cbn [fst snd app wput]. split; [reflexivity|]. split; [now rewrite app_nil_r|]. exists (run_brotli cp o buf). split; [right; now exists o, buf|right; now repeat split].
Qed.
Lemma sos_sections m cp cd sc f src trgt : agrees cp cd -> forall secs cur,
  same_or_stopped cp cd (write_sections m (section_writer m cd sc) f src trgt cur secs) (write_sections m (i_section_writer m cp sc) f src trgt cur secs).
Proof.
  intro Ha. induction secs as [|[ops h] rest IH]; intro cur; cbn [write_sections]; [left; reflexivity|]. cbv zeta. apply sos_bind. intros _.
  apply sos_then; [now apply sos_section|]. intros _. apply IH.
Qed.
Lemma sos_encode m cp cd c src trgt : agrees cp cd ->
  same_or_stopped cp cd (encode m cd c (Some src) trgt) (encode_with m (i_section_writer m cp (cf_comp c)) (inner_of c) (cf_format c) (cf_segment c) src trgt).
Proof. intro Ha. unfold encode, encode_with. cbv zeta. apply sos_bind. intro cands. apply sos_bind. intro ops. now apply sos_sections. Qed.
Lemma works_agrees cp cd : works cp cd -> agrees cp cd.
Proof. intros [Hz Hb]. split; intros l d b E; [rewrite Hz in E|rewrite Hb in E]; now injection E as <-. Qed.
Lemma works_encode m cp cd c src trgt : works cp cd ->
  encode_with m (i_section_writer m cp (cf_comp c)) (inner_of c) (cf_format c) (cf_segment c) src trgt = encode m cd c (Some src) trgt.
Proof.
  intro Hw. destruct (sos_encode m cp cd c src trgt (works_agrees _ _ Hw)) as [E|(wh & pt & fu & rs & _ & _ & s & Hs & Hf)]; [exact E|]. exfalso. destruct Hw as [Hz Hb].
  assert (X : exists b, s = Squeezed b) by (destruct Hs as [(l & d & -> & _)|(o & d & -> & _)]; [exists (zstd_enc cd l d); apply Hz|exists (brotli_enc cd o d); apply Hb]).
  destruct X as [b ->]. destruct Hf as [(e & X & _)|[X _]]; discriminate X.
Qed.
Lemma read_sound r : sound_input r -> read_to_end r = (at_end r, Ok (remaining r)).
Proof. unfold sound_input, read_to_end. intros [-> _]. reflexivity. Qed.
Lemma read_breaks r e : breaks r e -> exists r', read_to_end r = (r', Err e).
Proof. intros (k & E & Hk). unfold read_to_end. rewrite E. fold (remaining r). destruct (Z.leb_spec k (zlen (remaining r))); [eexists; reflexivity|lia]. Qed.

(** C109, the healthy case (see also C86). encode takes from each reader what it would still deliver, from its position on, and leaves it at its end; the patch is that of these bytes. (It is never rewound: a dictionary that has been read
    to its end by one call is an empty dictionary for the next.) *)
Theorem C109_healthy_run : forall m cp cd c dict output, works cp cd -> (forall d, dict = Some d -> sound_input d) -> sound_input output ->
  encode_io m cp c dict output = ((option_map at_end dict, at_end output), encode m cd c (option_map remaining dict) (remaining output)) /\
  (in_pos output = 0 -> remaining output = in_data output) /\
  remaining (at_end output) = [] /\
  forall output2, sound_input output2 -> encode_io m cp c (option_map at_end dict) output2 = ((option_map at_end (option_map at_end dict), at_end output2), encode m cd c None (remaining output2)).
Proof.
  intros m cp cd c dict output Hw Hd Ho.
  assert (G : forall dict output, (forall d, dict = Some d -> sound_input d) -> sound_input output ->
    encode_io m cp c dict output = ((option_map at_end dict, at_end output), encode m cd c (option_map remaining dict) (remaining output))).
  { clear dict output Hd Ho. intros dict output Hd Ho. unfold encode_io. destruct dict as [d|]; cbn [option_map].
    - rewrite (read_sound d (Hd d eq_refl)), (read_sound output Ho). rewrite (works_encode m cp cd c _ _ Hw). reflexivity.
    - rewrite (read_sound output Ho). rewrite (works_encode m cp cd c _ _ Hw). reflexivity. }
  assert (R : forall r, sound_input r -> remaining (at_end r) = []).
  { intros r [_ Hp]. unfold remaining at 1, at_end. cbn [in_data in_pos]. unfold remaining, drop, zlen. apply skipn_all2. rewrite skipn_length. lia. }
  split; [now apply G|]. split; [intro E; unfold remaining; rewrite E; reflexivity|]. split; [now apply R|]. intros output2 Ho2. rewrite G; [| |exact Ho2].
  - f_equal. destruct dict as [d|]; cbn [option_map]; [rewrite (R d (Hd d eq_refl)); reflexivity|reflexivity].
  - destruct dict as [d|]; cbn [option_map]; intros d0 [= <-]. split; [reflexivity|]. unfold at_end. cbn [in_pos]. pose proof (proj2 (Hd d eq_refl)). pose proof (zlen_nonneg (remaining d)). lia.
Qed.
(** C109. A reader fails, for whatever configuration and compressors: its error is returned and nothing has been written. If it is the dictionary, the target has not been touched. *)
Theorem C109_failing_reader : forall m cp c output,
  (forall d e, breaks d e -> exists d', encode_io m cp c (Some d) output = ((Some d', output), ([], Err e))) /\
  (forall dict e, (forall d, dict = Some d -> sound_input d) -> breaks output e -> exists o', encode_io m cp c dict output = ((option_map at_end dict, o'), ([], Err e))).
Proof.
  intros m cp c output. split.
  - intros d e H. destruct (read_breaks d e H) as [d' E]. exists d'. unfold encode_io. rewrite E. reflexivity.
  - intros dict e Hd H. destruct (read_breaks output e H) as [o' E]. exists o'. unfold encode_io. destruct dict as [d|]; cbn [option_map].
    + rewrite (read_sound d (Hd d eq_refl)), E. reflexivity.
    + rewrite E. reflexivity.
Qed.
(** C109. A compressor fails (or panics) on the data of some section: the failure is the outcome of encode, and what was written is what a healthy run writes up to that section's compressed data, and then what
    the compressor wrote. If none of the calls fails, everything is as in a healthy run. Success is never reported for anything else than a healthy run's patch. *)
Theorem C109_failing_compressor : forall m cp cd c dict output, agrees cp cd -> (forall d, dict = Some d -> sound_input d) -> sound_input output ->
  let healthy := encode m cd c (option_map remaining dict) (remaining output) in
  let '(_, w) := encode_io m cp c dict output in
  same_or_stopped cp cd healthy w /\ (snd w = Ok tt -> w = healthy).
Proof.
  intros m cp cd c dict output Ha Hd Ho. cbv zeta.
  assert (G : exists st, encode_io m cp c dict output = (st, encode_with m (i_section_writer m cp (cf_comp c)) (inner_of c) (cf_format c) (cf_segment c) (match dict with Some d => remaining d | None => [] end) (remaining output))).
  { unfold encode_io. destruct dict as [d|]; [rewrite (read_sound d (Hd d eq_refl))|]; rewrite (read_sound output Ho); eexists; reflexivity. }
  destruct G as [st ->]. set (src := match dict with Some d => remaining d | None => [] end).
  replace (encode m cd c (option_map remaining dict) (remaining output)) with (encode m cd c (Some src) (remaining output)) by (unfold src; destruct dict; reflexivity).
  pose proof (sos_encode m cp cd c src (remaining output) Ha) as H. split; [exact H|]. intro E. destruct H as [H|(wh & pt & fu & rs & _ & _ & s & _ & Hf)]; [exact H|].
  rewrite E in Hf. destruct Hf as [(e & _ & X)|(_ & _ & X)]; discriminate X.
Qed.
(** C109. If moreover a compressor that fails has not written all of its data, what is on the disk after the failure is never taken for a patch; and a reported success means that applying gives the target. *)
Definition fails_short (cp : compressors) (cd : codecs) : Prop :=
  (forall l d b e, run_zstd cp l d = SqueezeErr b e -> exists rest, rest <> [] /\ zstd_enc cd l d = b ++ rest) /\
  (forall o d b e, run_brotli cp o d = SqueezeErr b e -> exists rest, rest <> [] /\ brotli_enc cd o d = b ++ rest) /\
  (forall l d, run_zstd cp l d = SqueezePanic -> zstd_enc cd l d <> []) /\ (forall o d, run_brotli cp o d = SqueezePanic -> brotli_enc cd o d <> []).
Theorem C109_compressor_failure_is_detected : forall m m' cp cd c d output p, agrees cp cd -> fails_short cp cd -> codecs_cut cd -> sound_input d -> sound_input output ->
  comp_lossless cd (cf_comp c) (remaining output) -> Forall is_byte (remaining output) -> zlen (remaining output) < 2 ^ 63 -> zlen (remaining d) < 2 ^ 63 ->
  encode m cd c (Some (remaining d)) (remaining output) = (p, Ok tt) ->
  let '(_, (written, r)) := encode_io m cp c (Some d) output in
  (r = Ok tt -> forall old q, exists q', apply_patch m' cd written (Some (remaining d)) (mkSink old q) = (mkSink (remaining output ++ drop (zlen (remaining output)) old) q', Ok tt)) /\
  (r <> Ok tt -> (forall d s, snd (apply_patch m' cd written (Some d) s) <> Ok tt) /\ (forall g, merger_new m' cd written <> Ok g) /\ (forall f sc seg, snd (transcode m' cd written f sc seg) <> Ok tt)).
Proof.
  intros m m' cp cd c d output p Ha Hf Hcut Hd Ho Hl Hb Ht Hs E.
  assert (Hd' : forall x, Some d = Some x -> sound_input x) by (intros x [= <-]; exact Hd).
  pose proof (C109_failing_compressor m cp cd c (Some d) output Ha Hd' Ho) as H.
  cbv zeta in H. destruct (encode_io m cp c (Some d) output) as [st [written r]]. cbn [option_map] in H. rewrite E in H. destruct H as [H Hok]. cbn [snd] in Hok. split.
  - intros Er old q. specialize (Hok Er). injection Hok as -> ->. pose proof (C31_encode_apply_roundtrip m m' cd c (Some (remaining d)) (remaining output) p Hl Hb Ht Hs E [] old q) as X. rewrite app_nil_r in X. exact X.
  - intro Er. destruct H as [H|H]; [injection H as _ ->; now elim Er|]. destruct H as (wh & pt & fu & rs & E1 & E2 & s & Hs1 & Hs2). cbn [fst snd] in *.
    assert (X : exists rest, rest <> [] /\ fu = pt ++ rest).
    { destruct Hf as (F1 & F2 & F3 & F4). destruct Hs2 as [(e & -> & _)|(-> & -> & _)].
      - destruct Hs1 as [(l & dd & Y & ->)|(o & dd & Y & ->)]; [exact (F1 _ _ _ _ (eq_sym Y))|exact (F2 _ _ _ _ (eq_sym Y))].
      - exists fu. split; [|reflexivity]. destruct Hs1 as [(l & dd & Y & ->)|(o & dd & Y & ->)]; [exact (F3 _ _ (eq_sym Y))|exact (F4 _ _ (eq_sym Y))]. }
    destruct X as (rest & Hne & ->).
    assert (Ep : p = written ++ (rest ++ rs)) by (rewrite E1, E2; now rewrite <- !app_assoc).
    assert (Hne2 : rest ++ rs <> []) by (destruct rest; [now elim Hne|discriminate]).
    destruct (C78_interrupted_write_is_detected m' cd p (remaining d) (remaining output) written (rest ++ rs) Hcut (made_encode cd m c _ _ p Hl Hb Ht Hs E) Ep Hne2) as (A & B & _ & D).
    split; [exact A|]. split; [exact B|]. intros f sc seg. exact (proj2 (D f sc seg)).
Qed.

Definition c109_dict : list Z := [200; 201; 202] ++ map (fun i => i mod 97) (map Z.of_nat (seq 0 60)).
Definition c109_trgt : list Z := map (fun i => i mod 97) (map Z.of_nat (seq 0 40)) ++ [7; 9; 7; 9; 7; 9; 7; 9; 7; 9; 7; 9].
Definition c109_cfg : config := mkConfig (Some (mkSC 1 None)) None None Interleaved 65535 None None.
Definition c109_ok : compressors := mkCompressors (fun l d => Squeezed (zstd_enc toy l d)) (fun o d => Squeezed (brotli_enc toy o d)).
(** A zstd call that writes part of its data and fails ends encode with its error, and the patch it leaves is cut. *)
Definition c109_bad : compressors := mkCompressors (fun l d => if zlen d <? 20 then Squeezed (zstd_enc toy l d) else SqueezeErr (take 5 (zstd_enc toy l d)) InvalidData) (fun _ _ => SqueezePanic).
Definition c109_z (f : config) : config := mkConfig (cf_src f) None (Some (ZstdComp 3)) Segregated 65535 None None.
Lemma c109_short : fails_short c109_bad toy.
Proof.
  split; [|split; [discriminate|split]].
  - intros l d b e. cbn [run_zstd c109_bad]. destruct (Z.ltb_spec (zlen d) 20) as [|H]; [discriminate|]. intros [= <- _]. exists (drop 5 (zstd_enc toy l d)). split; [|symmetry; apply take_drop].
    cbn [zstd_enc toy]. unfold toy_frame, toy_enc. destruct d as [|x [|y [|z d]]]; try (vm_compute in H; discriminate H || (exfalso; now apply H)). discriminate.
  - intros l d _. discriminate.
  - intros o d _. cbn [brotli_enc toy]. unfold toy_enc. now destruct d.
Qed.
Example C109_example : fails_short c109_bad toy /\ codecs_cut toy /\
  works c109_ok toy /\ sound_input (mkInput c109_dict 3 None) /\ remaining (mkInput c109_dict 3 None) <> c109_dict /\
  breaks (mkInput c109_dict 3 (Some (10, EOF))) EOF /\ agrees c109_bad toy /\
  snd (snd (encode_io Release c109_ok (c109_z c109_cfg) (Some (mkInput c109_dict 3 None)) (mkInput c109_trgt 0 None))) = Ok tt /\
  snd (encode_io Release c109_bad (c109_z c109_cfg) None (mkInput c109_trgt 20 None)) = ([80; 1; 32; 0; 40; 181; 1; 160; 1], Err InvalidData) /\
  snd (snd (encode_io Release c109_bad (c109_z c109_cfg) None (mkInput c109_trgt 40 None))) = Ok tt /\
  snd (encode_io Release c109_bad (mkConfig None None (Some (BrotliComp 0)) Segregated 65535 None None) None (mkInput c109_trgt 40 None)) = ([88; 1; 12; 0], Panic).
Proof.
  split; [exact c109_short|]. split; [exact toy_cut|]. split; [split; intros; reflexivity|]. split; [split; [reflexivity|cbn; lia]|]. split; [vm_compute; discriminate|]. split; [exists 10; split; [reflexivity|vm_compute; discriminate]|].
  split. { split; [|discriminate]. intros l d b. cbn [run_zstd c109_bad]. destruct (zlen d <? 20); [|discriminate]. now intros [= <-]. }
  repeat (split; [vm_compute; reflexivity|]). vm_compute. reflexivity.
Qed.

(** ** C110 *)
(** The value a chain of calls [l] gives a field ([what s]: the value call [s] gives it, if it is about this field): that of the last call about it; if there is none, what it was before. *)
Definition decided {A} (what : setting -> option A) (l : list setting) (before after : A) : Prop :=
  (exists l1 s l2, l = l1 ++ s :: l2 /\ what s = Some after /\ forall x, In x l2 -> what x = None) \/ ((forall x, In x l -> what x = None) /\ after = before).
Definition about_src (s : setting) : option (option src_config) := match s with NoMatchSrc => Some None | SetMatchSrc c => Some (Some c) | _ => None end.
Definition about_trgt (s : setting) : option (option trgt_config) := match s with NoMatchTarget => Some None | SetMatchTarget c => Some (Some c) | _ => None end.
Definition about_comp (s : setting) : option (option sec_comp) := match s with NoSecComp => Some None | SetSecComp c => Some (Some c) | _ => None end.
Definition about_format (s : setting) : option format := match s with FormatInterleaved => Some Interleaved | FormatSegregated => Some Segregated | _ => None end.
Definition about_segment (s : setting) : option Z := match s with SetOutputSegmentSize n => Some n | _ => None end.
Definition about_naive (s : setting) : option (option naive) := match s with SetNaiveTests t => Some (Some t) | _ => None end.
Definition about_lazy (s : setting) : option (option Z) := match s with SetLazyEscapeLen n => Some (Some n) | _ => None end.

Lemma decided_all {A} (what : setting -> option A) (get : config -> A) :
  (forall c s, get (set_one c s) = match what s with Some v => v | None => get c end) -> forall l c, decided what l (get c) (get (set_all c l)).
Proof.
  intro H. induction l as [|s l IH]; intro c; cbn [set_all fold_left]; [right; split; [now intros x []|reflexivity]|].
  fold (set_all (set_one c s) l). destruct (IH (set_one c s)) as [(l1 & s1 & l2 & -> & E & N)|[N E]].
  - left. exists (s :: l1), s1, l2. now repeat split.
  - rewrite H in E. destruct (what s) as [v|] eqn:W.
    + left. exists [], s, l. cbn [app]. rewrite E. now repeat split.
    + right. split; [|exact E]. intros x [<-|Hx]; [exact W|now apply N].
Qed.
(** C110. Every field of a configuration made by a chain of calls has the value of the last call about it, whatever the other calls and their order: no call has an effect on another field. *)
Theorem C110_last_call_wins : forall c l, let r := set_all c l in
  decided about_src l (cf_src c) (cf_src r) /\ decided about_trgt l (cf_trgt c) (cf_trgt r) /\ decided about_comp l (cf_comp c) (cf_comp r) /\ decided about_format l (cf_format c) (cf_format r) /\
  decided about_segment l (cf_segment c) (cf_segment r) /\ decided about_naive l (cf_naive c) (cf_naive r) /\ decided about_lazy l (cf_lazy c) (cf_lazy r).
Proof. intros c l. cbv zeta. repeat split; apply decided_all; intros [a b d e f g h] s; destruct s; reflexivity. Qed.
(** C110. Starting from the default configuration, every configuration can be made by such calls (so the theorems about encode with any configuration are about these, and no more). *)
Theorem C110_every_configuration_can_be_made : forall m c, exists d l, config_default m = Ok d /\ set_all d l = c.
Proof.
  intros m [s t k f n v z].
  assert (E : config_default m = Ok (mkConfig (Some (mkSC 18 None)) None None Interleaved MAX_WIN_SIZE None None)) by (destruct m; vm_compute; reflexivity).
  eexists. exists ((match s with Some x => [SetMatchSrc x] | None => [NoMatchSrc] end) ++ (match t with Some x => [SetMatchTarget x] | None => [] end) ++ (match k with Some x => [SetSecComp x] | None => [] end) ++
    (match f with Segregated => [FormatSegregated] | Interleaved => [] end) ++ [SetOutputSegmentSize n] ++ (match v with Some x => [SetNaiveTests x] | None => [] end) ++ (match z with Some x => [SetLazyEscapeLen x] | None => [] end)).
  split; [exact E|]. destruct s, t, k, f, v, z; reflexivity.
Qed.
Lemma src_build_step0 m w src p trgt : src_build m (mkSC 0 w) src p trgt = src_build m (mkSC 1 w) src p trgt.
Proof. reflexivity. Qed.
Lemma encode_src_ext m cd a b dict trgt : cf_trgt a = cf_trgt b -> cf_comp a = cf_comp b -> cf_format a = cf_format b ->
  Z.max (Z.min (cf_segment a) MAX_WIN_SIZE) MAX_INST_SIZE = Z.max (Z.min (cf_segment b) MAX_WIN_SIZE) MAX_INST_SIZE -> cf_naive a = cf_naive b -> cf_lazy a = cf_lazy b ->
  match cf_src a, cf_src b with Some x, Some y => forall src p, src_build m x src p trgt = src_build m y src p trgt | None, None => True | _, _ => False end ->
  encode m cd a dict trgt = encode m cd b dict trgt.
Proof.
  intros Et Ec Ef Es En El Hs. unfold encode, encode_with. cbv zeta. rewrite Es, Ef, Ec.
  replace (encode_inner m (inner_of a)) with (fun x y => encode_inner m (inner_of a) x y) by reflexivity.
  enough (X : encode_inner m (inner_of a) (match dict with Some d => d | None => [] end) trgt = encode_inner m (inner_of b) (match dict with Some d => d | None => [] end) trgt) by now rewrite X.
  generalize (match dict with Some d => d | None => [] end). intro src. unfold encode_inner, inner_of. cbn [ic_src ic_trgt ic_naive ic_lazy]. rewrite Et, En, El.
  destruct (cf_src a) as [x|], (cf_src b) as [y|]; try contradiction; [|reflexivity].
  destruct (cf_trgt b) as [t|]; cbv zeta; (destruct (_ && _); [reflexivity|]; destruct (zlen trgt =? 0); [reflexivity|]; destruct (naive_tests (cf_naive b) src trgt) as [[ops cur] mx]; rewrite (Hs src cur); reflexivity).
Qed.
(** C110. Settings that mean the same, on every input, byte for byte and failure for failure: a section size outside 65535..16777215 and the nearer end; a step of 0 and of 1; no window size and 2^26; a window size and
    the next power of two, or 2^20 if that is more. *)
Theorem C110_equivalent_settings : forall m cd c dict trgt,
  (forall n, encode m cd (set_one c (SetOutputSegmentSize n)) dict trgt = encode m cd (set_one c (SetOutputSegmentSize (Z.max 65535 (Z.min n 16777215)))) dict trgt) /\
  (forall w, encode m cd (set_one c (SetMatchSrc (src_new 0 w))) dict trgt = encode m cd (set_one c (SetMatchSrc (src_new 1 w))) dict trgt) /\
  (forall k, encode m cd (set_one c (SetMatchSrc (src_new k None))) dict trgt = encode m cd (set_one c (SetMatchSrc (src_new k (Some (2 ^ 26))))) dict trgt) /\
  (forall k n b, 20 <= b <= 63 -> n <= 2 ^ b -> (b = 20 \/ 2 ^ (b - 1) < n) ->
     encode m cd (set_one c (SetMatchSrc (src_new k (Some n)))) dict trgt = encode m cd (set_one c (SetMatchSrc (src_new k (Some (2 ^ b))))) dict trgt).
Proof.
  intros m cd [s t k f n v z] dict trgt. split; [|split; [|split]].
  - intro n'. apply encode_src_ext; cbn [set_one cf_src cf_trgt cf_comp cf_format cf_segment cf_naive cf_lazy]; try reflexivity.
    + unfold MAX_WIN_SIZE, MAX_INST_SIZE, max_win_size, max_inst_size. lia.
    + destruct s; [reflexivity|exact I].
  - intro w. apply encode_src_ext; try reflexivity. cbn [set_one cf_src]. intros src p. apply src_build_step0.
  - intro k'. apply encode_src_ext; try reflexivity. cbn [set_one cf_src]. intros src p. unfold src_build, src_new. cbn [sc_step sc_win].
    assert (E : next_power_of_two m (2 ^ 26) = Ok (2 ^ 26)) by (destruct m; vm_compute; reflexivity). rewrite E. reflexivity.
  - intros k' n' b Hb Hn Hb2. apply encode_src_ext; try reflexivity. cbn [set_one cf_src]. intros src p. unfold src_build, src_new. cbn [sc_step sc_win].
    assert (E : (do p <- next_power_of_two m n'; Ok (Z.max p MIN_SRC_WIN_SIZE)) = (do p <- next_power_of_two m (2 ^ b); Ok (Z.max p MIN_SRC_WIN_SIZE))).
    { assert (P : 2 ^ b <= 2 ^ 63) by (apply Z.pow_le_mono_r; lia). assert (P1 : 2 ^ 20 <= 2 ^ b) by (apply Z.pow_le_mono_r; lia). 
      assert (X : next_power_of_two m (2 ^ b) = Ok (2 ^ b)). { unfold next_power_of_two. destruct (Z.leb_spec (2 ^ b) 1); [lia|]. destruct (Z.gtb_spec (2 ^ b) (2 ^ 63)); [lia|]. rewrite Z.log2_up_pow2 by lia. reflexivity. }
      rewrite X. cbn [bind]. unfold next_power_of_two, MIN_SRC_WIN_SIZE. destruct (Z.leb_spec n' 1) as [H1|H1]; cbn [bind].
      - destruct Hb2 as [->|Hb2]; [f_equal; lia|]. pose proof (Z.pow_le_mono_r 2 19 (b - 1)). destruct (Z.eq_dec b 20) as [->|]; [f_equal; lia|lia].
      - destruct (Z.gtb_spec n' (2 ^ 63)); [lia|]. cbn [bind]. f_equal. destruct Hb2 as [->|Hb2].
        + pose proof (Z.log2_up_le_pow2 n' 20). assert (Z.log2_up n' <= 20) by (apply (proj1 (Z.log2_up_le_pow2 n' 20 ltac:(lia))); lia). pose proof (Z.pow_le_mono_r 2 (Z.log2_up n') 20). lia.
        + assert (L : Z.log2_up n' = b). { apply Z.log2_up_unique; [lia|]. rewrite <- Z.sub_1_r. lia. } rewrite L. reflexivity. }
    rewrite E. reflexivity.
Qed.
(** C110. The short forms: the default configuration is level 3 without target matching and secondary compression; adding a secondary compression by [comp_level] makes the format segregated, adding it by
    [set_sec_comp] does not change it. *)
Theorem C110_short_forms : forall m sc, config_level m 3 false None = config_default m /\
  (forall d, config_default m = Ok d -> exists s, config_level m 3 false (Some sc) = Ok s /\ s = set_all d [SetSecComp sc; FormatSegregated] /\ cf_format (set_one d (SetSecComp sc)) = Interleaved) /\
  smdiff_default m = Ok (SmdiffComp (mkTC 27 11 None)) /\ algo_value zstd_default = 2.
Proof.
  intros m sc. split; [destruct m; reflexivity|]. split; [|split; [destruct m; vm_compute; reflexivity|reflexivity]].
  intros d E. assert (E2 : config_default m = Ok (mkConfig (Some (mkSC 18 None)) None None Interleaved MAX_WIN_SIZE None None)) by (destruct m; vm_compute; reflexivity).
  rewrite E2 in E. injection E as <-. eexists. split; [|split; reflexivity]. unfold config_level.
  assert (S : src_level m 3 = Ok (mkSC 18 None)) by (destruct m; vm_compute; reflexivity). rewrite S. reflexivity.
Qed.
Example C110_example : exists d, config_default Debug = Ok d /\
  set_all d [SetMatchTarget (with_table_capacity (mkTC 27 11 None) 64); FormatSegregated; SetSecComp (ZstdComp 3); NoMatchTarget; SetOutputSegmentSize 5; NoSecComp; SetSecComp (BrotliComp 1); SetMatchSrc (src_new 4 None)] =
    mkConfig (Some (mkSC 4 None)) None (Some (BrotliComp 1)) Segregated 5 None None /\
  (20 <= 21 <= 63 /\ 1500000 <= 2 ^ 21 /\ 2 ^ (21 - 1) < 1500000) /\
  snd (encode Debug toy (mkConfig (Some (mkSC 0 (Some 1500000))) None None Interleaved 5 None None) (Some c109_dict) c109_trgt) = Ok tt.
Proof. eexists. split; [reflexivity|]. split; [reflexivity|]. split; [lia|]. vm_compute. reflexivity. Qed.
Print Assumptions C109_healthy_run.
Print Assumptions C109_failing_reader.
Print Assumptions C109_failing_compressor.
Print Assumptions C109_compressor_failure_is_detected.
Print Assumptions C110_last_call_wins.
Print Assumptions C110_every_configuration_can_be_made.
Print Assumptions C110_equivalent_settings.
Print Assumptions C110_short_forms.
