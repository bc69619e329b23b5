(** Property C79: arbitrary bytes given to the merger and the transcoder, in a build without overflow checks. *)
From Verif Require Import Base Spec SpecEnc MCommon MWriter MReader MDecoder MOpMaker MTrgtMatcher MSrcMatcher MEncInner MEncode MMerger MTranscoder
  SpecApi SpecMerge PBase PStream PSection PWriter PDecoder PPatch POpMaker PEncode PTotal2 PMerge PMerge2 PMerge3 PMerge4 PMerge5 PTrans PMode PRobust TEncode TApply TMerge TTrans TMode.
Ltac Zify.zify_post_hook ::= idtac.
Arguments Z.add : simpl never.
Arguments Z.sub : simpl never.
Arguments Z.mul : simpl never.
Arguments Z.pow : simpl never.

(** The two kinds of sections the section reader of smdiff-decoder panics on (C67). *)
Definition crash_section (cd : codecs) (bs : list Z) : Prop := inner_dict_section bs \/ bad_frame_section cd bs.
(** What becomes of bytes that are no patch: an error, or a panic in the section reader. *)
Definition rejected {A} (cd : codecs) (bytes : list Z) (r : res A) : Prop :=
  (exists e, r = Err e) \/ r = Panic /\ reaches (next_section Release cd) (crash_section cd) bytes.
Definition readable (cd : codecs) (bytes : list Z) : Prop := exists ops, reads_as Release cd bytes ops.

Lemma extract_loop_panic cd : codecs_fine cd -> codecs_shrink cd -> forall k bs pos s, (length bs < k)%nat ->
  extract_loop k Release cd bs pos s <> Diverge /\
  (extract_loop k Release cd bs pos s = Panic -> reaches (next_section Release cd) (crash_section cd) bs).
Proof.
  intros Hf Hs. induction k as [|k IH]; intros bs pos s Hk; [lia|]. cbn [extract_loop]. destruct (next_section_cases cd bs Hf) as [N1 N2].
  destruct (next_section Release cd bs) as [[[ops h] r]|e| |] eqn:E; cbn [bind]; [|split; discriminate| |congruence].
  - destruct (extract_ops ops pos s) as [[l pos'] s']. destruct (h_more h) eqn:Eh; [|split; discriminate].
    pose proof (next_section_shrink Release cd Hs bs ops h r E) as Hl. destruct (IH r pos' s' ltac:(lia)) as [I1 I2].
    destruct (extract_loop k Release cd r pos' s') as [[l' s'']|e| |]; cbn [bind]; [split; discriminate|split; discriminate| |congruence].
    split; [discriminate|]. intros _. destruct (I2 eq_refl) as (ll & r' & Hr & Hc). exists (ops :: ll), r'. split; [|exact Hc]. exact (sr_cons _ _ _ _ _ _ _ E Eh Hr).
  - split; [discriminate|]. intros _. exists [], bs. split; [constructor|]. exact (N2 eq_refl).
Qed.
Lemma extract_cases cd bytes : codecs_fine cd -> codecs_bytes cd -> codecs_shrink cd -> Forall is_byte bytes ->
  (forall ops, reads_as Release cd bytes ops -> exists st, extract_patch_instructions Release cd bytes = Ok (number 0 ops, st) /\ st_copy_bytes st = 2 * bytes_of is_copy ops /\ Forall op_ok ops) /\
  (~ readable cd bytes -> rejected cd bytes (extract_patch_instructions Release cd bytes)).
Proof.
  intros Hf Hb Hs By. destruct (C54_extraction_exact Release cd bytes Hb Hs By) as [E1 E2]. split.
  - intros ops HR. destruct (E1 ops HR) as (st & E). exists st. split; [exact E|]. destruct (C53_statistics_exact Release cd bytes ops Hb Hs By HR) as (l & st' & E' & S).
    rewrite E in E'. injection E' as _ <-. split; [apply S|]. destruct HR as (secs & r & Hp & ->). apply (patch_read_typed Release cd Hb _ _ _ Hp By).
  - intro Hn. unfold rejected. destruct (extract_loop_panic cd Hf Hs (S (length bytes)) bytes 0 stats_new (Nat.lt_succ_diag_r _)) as [P1 P2].
    fold (extract_patch_instructions Release cd bytes) in P1, P2.
    destruct (extract_patch_instructions Release cd bytes) as [[l st]|e| |] eqn:E; [|left; eauto|right; auto|congruence].
    exfalso. apply Hn. destruct (E2 l st eq_refl) as (ops & HR & _). now exists ops.
Qed.

(** ** Starting a merge *)
(** C79. Starting a merge with arbitrary bytes. Bytes that are a patch are taken exactly if nothing is copied or all copies from the output are from
    earlier output; otherwise the program panics. Other bytes are rejected. *)
Theorem C79_new_untrusted : forall cd bytes, codecs_fine cd -> codecs_bytes cd -> codecs_shrink cd -> Forall is_byte bytes ->
  (forall ops, reads_as Release cd bytes ops ->
     if (bytes_of is_copy ops =? 0) || out_fit 0 ops then exists r, merger_new Release cd bytes = Ok r else merger_new Release cd bytes = Panic) /\
  (~ readable cd bytes -> rejected cd bytes (merger_new Release cd bytes)).
Proof.
  intros cd bytes Hf Hb Hs By. destruct (extract_cases cd bytes Hf Hb Hs By) as [E1 E2]. split.
  - intros ops HR. destruct (E1 ops HR) as (st & E & S & Hok). unfold merger_new. rewrite E. cbn [bind]. rewrite S.
    replace (2 * bytes_of is_copy ops =? 0) with (bytes_of is_copy ops =? 0) by lia. destruct (bytes_of is_copy ops =? 0); cbn [orb]; [eauto|].
    pose proof (deref_loose ops (loose_all_ok _ Hok)) as D. destruct (out_fit 0 ops); [|rewrite D; reflexivity]. destruct D as (r & -> & _). cbn [bind debug_assert_]. eauto.
  - intro Hn. destruct (E2 Hn) as [(e & E)|[E R]]; unfold rejected, merger_new; rewrite E; cbn [bind]; [left; eauto|right; auto].
Qed.

(** ** Going on with a merge *)
(** Every merger that can be reached with patches of any origin whose operations are not empty and whose output is not larger than what 64 bits count. *)
Inductive reached (cd : codecs) : merger -> Prop :=
| re_new bytes g : Forall is_byte bytes -> merger_new Release cd bytes = Ok (Open g) -> reached cd g
| re_merge g bytes ops g' : reached cd g -> Forall is_byte bytes -> reads_as Release cd bytes ops -> Forall (fun o => 1 <= op_len o) ops -> ops_len ops < 2 ^ 64 ->
    merger_merge Release cd g bytes = Ok (Open g') -> reached cd g'.
Definition inv (g : merger) : Prop := contiguous 0 (mg_patch g) /\ looses (mg_patch g) /\ mg_copies g = find_mergeable (mg_patch g) 0.

Lemma zlen_non_empties l : non_empties l -> zlen l <= slen l.
Proof.
  induction 1 as [|x l Hx _ IH]; [unfold slen; cbn; unfold zlen; cbn; lia|]. rewrite zlen_cons, slen_cons. lia.
Qed.
Lemma bytes_of_nonneg P ops : Forall op_ok ops -> 0 <= bytes_of P ops.
Proof.
  intro H. unfold bytes_of, ops_len. induction H as [|x l Hx _ IH]; [cbn; lia|]. cbn [filter]. destruct (P x); [|exact IH]. cbn [fold_right].
  destruct (ok_loose _ Hx) as [Hx1 Hx2]. pose proof (loose_oal x (conj Hx1 Hx2)). lia.
Qed.
Lemma merge_step cd g bytes ops : codecs_fine cd -> codecs_bytes cd -> codecs_shrink cd -> Forall is_byte bytes -> inv g -> reads_as Release cd bytes ops ->
  Forall (fun o => 1 <= op_len o) ops -> ops_len ops < 2 ^ 64 ->
  if out_fit 0 ops && dict_fits (ops_len ops) (merger_finish g) then exists r, merger_merge Release cd g bytes = Ok r /\ (forall g', r = Open g' -> inv g')
  else merger_merge Release cd g bytes = Panic.
Proof.
  intros Hf Hb Hs By (C & L & X) HR Hne Hlt. destruct (extract_cases cd bytes Hf Hb Hs By) as [E1 _]. destruct (E1 ops HR) as (st & E & S & Hok).
  unfold merger_merge. cbn [debug_assert_ bind]. rewrite E. cbn [bind]. rewrite S. pose proof (loose_all_ok _ Hok) as Hlo.
  assert (K : forall pr, contiguous 0 pr -> looses pr -> slen pr = ops_len ops -> non_empties pr ->
    if dict_fits (ops_len ops) (merger_finish g) then
      exists r, (do (ix, ins) <- merge_loop Release (mg_patch g) pr (mg_copies g) 0;
        (if zlen ix =? 0 then Ok (Summary (map snd (expand_to (mg_patch g) ins))) else Ok (Open (mkMerger (expand_to (mg_patch g) ins) ix)))) = Ok r /\ (forall g', r = Open g' -> inv g')
    else (do (ix, ins) <- merge_loop Release (mg_patch g) pr (mg_copies g) 0;
        (if zlen ix =? 0 then Ok (Summary (map snd (expand_to (mg_patch g) ins))) else Ok (Open (mkMerger (expand_to (mg_patch g) ins) ix)))) = Panic).
  { intros pr Cp Lp Sp Np. pose proof (zlen_non_empties pr Np) as Hz.
    pose proof (merge_loop_loose (mg_patch g) pr Cp Lp ltac:(lia) (mg_patch g) [] 0 eq_refl C L) as M. rewrite Sp in M. unfold merger_finish. change (zlen (@nil sparse)) with 0 in M. rewrite <- X in M.
    destruct (dict_fits (ops_len ops) (map snd (mg_patch g))); [|rewrite M; reflexivity]. destruct M as (ix & ins & -> & Kf & C2 & L2 & _ & X2). cbn [bind].
    assert (Ee : expand_to (mg_patch g) ins = expand_loop (mg_patch g) ins 0 0) by (unfold expand_to; rewrite (sort_id ins 0 Kf); reflexivity).
    rewrite Ee. change (slen []) with 0 in *. destruct (zlen ix =? 0); eexists; (split; [reflexivity|]); intros g' G; [discriminate|]. injection G as <-. unfold inv. cbn [mg_patch mg_copies]. auto. }
  pose proof (bytes_of_nonneg is_copy ops Hok) as Hn. destruct (2 * bytes_of is_copy ops >? 0) eqn:Eb.
  - pose proof (deref_loose ops Hlo) as D. destruct (out_fit 0 ops); [|rewrite D; reflexivity]. destruct D as (pr & -> & Cp & Lp & Sp & Np & _). cbn [bind andb]. apply K; auto.
  - cbn [bind]. assert (O : forall p l, Forall (fun o => 1 <= op_len o) l -> Forall op_ok l -> bytes_of is_copy l = 0 -> out_fit p l = true).
    { intros p l H. revert p. induction H as [|x l Hx Hl IH]; intros p Ho Hz; [reflexivity|]. inversion Ho as [|? ? Ho1 Ho2]; subst. cbn [out_fit]. pose proof (bytes_of_nonneg is_copy l Ho2).
      unfold bytes_of in Hz. cbn [filter] in Hz. destruct x as [|?|s a n]; cbn [is_copy] in Hz; [apply IH; auto..|].
      cbn [ops_len fold_right] in Hz. fold (ops_len (filter is_copy l)) in Hz. fold (bytes_of is_copy l) in Hz. lia. }
    rewrite O by (auto; lia). cbn [andb]. apply K; [apply number_contig|now apply looses_number|apply slen_number|now apply non_empties_number].
Qed.
Lemma reached_inv cd g : codecs_fine cd -> codecs_bytes cd -> codecs_shrink cd -> reached cd g -> inv g.
Proof.
  intros Hf Hb Hs. induction 1 as [bytes g By E|g bytes ops g' _ IH By HR Hne Hlt E].
  - destruct (extract_cases cd bytes Hf Hb Hs By) as [E1 E2]. unfold merger_new in E.
    destruct (extract_patch_instructions Release cd bytes) as [[l st]|e| |] eqn:Ex; cbn [bind] in E; try discriminate.
    destruct (C54_extraction_exact Release cd bytes Hb Hs By) as [_ X2]. destruct (X2 l st Ex) as (ops & HR & -> & _ & _).
    destruct (E1 ops HR) as (st' & _ & _ & Hok). destruct (st_copy_bytes st =? 0); [discriminate|].
    pose proof (deref_loose ops (loose_all_ok _ Hok)) as D. destruct (out_fit 0 ops); [|rewrite D in E; discriminate]. destruct D as (r & D & C & L & _). rewrite D in E. cbn [bind debug_assert_] in E.
    injection E as <-. unfold inv. cbn [mg_patch mg_copies]. auto.
  - pose proof (merge_step cd g bytes ops Hf Hb Hs By IH HR Hne Hlt) as M. destruct (out_fit 0 ops && dict_fits (ops_len ops) (merger_finish g)); [|rewrite M in E; discriminate].
    destruct M as (r & M & I). rewrite M in E. injection E as ->. now apply I.
Qed.
(** C79. Merging arbitrary bytes into any merger reached so. A patch is taken exactly if its copies from the output are from earlier output and all that the
    merged patch copies lies inside the patch's output; otherwise the program panics. Other bytes are rejected. *)
Theorem C79_merge_untrusted : forall cd g bytes, codecs_fine cd -> codecs_bytes cd -> codecs_shrink cd -> reached cd g -> Forall is_byte bytes ->
  (forall ops, reads_as Release cd bytes ops -> Forall (fun o => 1 <= op_len o) ops -> ops_len ops < 2 ^ 64 ->
     if out_fit 0 ops && dict_fits (ops_len ops) (merger_finish g) then exists r, merger_merge Release cd g bytes = Ok r else merger_merge Release cd g bytes = Panic) /\
  (~ readable cd bytes -> rejected cd bytes (merger_merge Release cd g bytes)).
Proof.
  intros cd g bytes Hf Hb Hs Hg By. split.
  - intros ops HR Hne Hlt. pose proof (merge_step cd g bytes ops Hf Hb Hs By (reached_inv cd g Hf Hb Hs Hg) HR Hne Hlt) as M.
    destruct (out_fit 0 ops && dict_fits (ops_len ops) (merger_finish g)); [|exact M]. destruct M as (r & M & _). eauto.
  - intro Hn. destruct (extract_cases cd bytes Hf Hb Hs By) as [_ E2]. destruct (E2 Hn) as [(e & E)|[E R]]; unfold rejected, merger_merge; cbn [debug_assert_ bind]; rewrite E; cbn [bind]; [left; eauto|right; auto].
Qed.

(** ** Transcoding *)
Lemma section_writer_release cd sc ops h : Forall op_ok ops -> h_comp h = 0 -> 0 <= h_nadd h < 2 ^ 32 -> zlen ops < 2 ^ 32 -> header_matches h ops -> legal_comp sc ->
  exists b, section_writer Release cd sc ops h = (b, Ok tt).
Proof.
  intros Hok Hc Hn Hz Hm Hsc. unfold section_writer.
  assert (Ha : 0 <= comp_value sc <= 7) by (destruct sc as [[]|]; cbn; lia).
  destruct (section_roundtrip Release ops (set_comp h (comp_value sc)) Hok (or_introl eq_refl)) as (hb & ob & W1 & W2 & _); [exact Ha|exact Hn|exact Hz|exact Hm|].
  destruct sc as [s|].
  - cbn [comp_value] in *. rewrite W1. cbn [wbind]. rewrite W2. cbn [wbind].
    destruct (write_ops_bytes Release ops _ _ Hok W2) as [Hob Hlen]. pose proof (adds_len_bounds _ Hok). destruct Hm as (Hmx & _ & Ho & _). unfold max_win_size in Hmx.
    destruct s; unfold wput, wlift; cbn [wbind app]; try (eexists; reflexivity). cbn [legal_comp] in Hsc.
    destruct (encode_nocomp_total Release c ob Hsc Hob) as (z & ->); [|eexists; reflexivity]. lia.
  - cbn [comp_value] in *. rewrite (set_comp_0 _ Hc) in *. unfold plain_writer. rewrite W1. cbn [wbind]. rewrite W2. eexists; reflexivity.
Qed.
Lemma write_all_release cd sc f seg ops : legal_comp sc -> Forall op_ok ops -> (zlen ops < 2 ^ 32 \/ Forall (fun o => 1 <= op_len o) ops) ->
  exists b, write_all_sections (section_writer Release cd sc) f (make_sections ops seg) = (b, Ok tt).
Proof.
  intros Hsc Hok Hsz. destruct (make_sections_spec ops seg Hok Hsz) as ((Hsec & Hfl) & Hcat & _).
  assert (Hok' := Hok). rewrite <- Hcat in Hok'. apply Forall_concat_inv in Hok'. rewrite Forall_map in Hok'.
  assert (Hz : Forall (fun s : list op * header => zlen (fst s) < 2 ^ 32) (make_sections ops seg)).
  { apply Forall_forall. intros s Hin. rewrite Forall_forall in Hsec. destruct (Hsec s Hin) as (_ & _ & (Hf1 & Hf2 & _) & Hs).
    assert (Hcl : clamp_section seg <= max_win_size) by (unfold clamp_section, max_win_size; lia). unfold max_win_size in Hcl.
    assert (Hincl : incl (fst s) ops). { rewrite <- Hcat. intros x Hx. apply in_concat. exists (fst s). split; [now apply in_map|exact Hx]. }
    destruct Hsz as [Hsz|Hsz].
    - eapply Z.le_lt_trans; [|exact Hsz]. rewrite <- Hcat. now apply zlen_in_concat.
    - assert (G : zlen (fst s) <= ops_len (fst s)).
      { assert (Forall (fun o => 1 <= op_len o) (fst s)) as HF by (rewrite Forall_forall in *; auto). clear -HF. unfold ops_len. induction HF as [|x l Hx _ IH]; [cbn; unfold zlen; cbn; lia|].
        rewrite zlen_cons. cbn [fold_right]. lia. }
      lia. }
  clear Hcat Hfl Hok Hsz. induction (make_sections ops seg) as [|[o h] secs IH]; [eexists; reflexivity|]. cbn [write_all_sections].
  inversion Hsec as [|? ? H1 H2]; subst. inversion Hok' as [|? ? H3 H4]; subst. inversion Hz as [|? ? H5 H6]; subst. cbn [fst snd] in *.
  destruct H1 as (Hc0 & Hfm & (Hf1 & Hf2 & Hf3) & Hs). pose proof (adds_len_bounds _ H3).
  assert (Hcl : clamp_section seg <= max_win_size) by (unfold clamp_section, max_win_size; lia). unfold max_win_size in Hcl.
  destruct (section_writer_release cd sc o (set_format h f)) as (b1 & ->); [exact H3|exact Hc0|cbn [set_format h_nadd]; lia|exact H5| |exact Hsc|].
  { unfold header_matches, max_win_size. cbn [set_format h_comp h_nops h_nadd h_osize]. split; [lia|]. split; [exact Hf1|]. split; [exact Hf2|]. intros _. exact Hf3. }
  cbn [wbind]. destruct (IH H2 H4 H6) as (b & ->). eexists; reflexivity.
Qed.
(** C79. Transcoding arbitrary bytes: a patch with operations (fewer than 2^32, or none of them empty) is transcoded, a patch without operations crashes the program, other bytes are rejected
    and nothing is written. *)
Theorem C79_transcode_untrusted : forall cd bytes f sc seg, codecs_fine cd -> codecs_bytes cd -> codecs_shrink cd -> Forall is_byte bytes -> legal_comp sc ->
  (forall ops, reads_as Release cd bytes ops -> zlen ops < 2 ^ 63 -> zlen ops < 2 ^ 32 \/ Forall (fun o => 1 <= op_len o) ops ->
     if zlen ops =? 0 then transcode Release cd bytes f sc seg = ([], Panic) else exists b, transcode Release cd bytes f sc seg = (b, Ok tt)) /\
  (~ readable cd bytes -> fst (transcode Release cd bytes f sc seg) = [] /\ rejected cd bytes (snd (transcode Release cd bytes f sc seg))).
Proof.
  intros cd bytes f sc seg Hf Hb Hs By Hsc. destruct (extract_cases cd bytes Hf Hb Hs By) as [E1 E2]. split.
  - intros ops HR Hlt Hsz. destruct (zlen ops =? 0) eqn:Ez.
    + assert (ops = []) as -> by (destruct ops; [reflexivity|rewrite zlen_cons in Ez; pose proof (zlen_nonneg ops); lia]). now apply C57_empty_patch_panics.
    + assert (Hne : ops <> []) by (intros ->; discriminate Ez). destruct (E1 ops HR) as (st & E & _ & Hok).
      destruct (optimize_ok Release ops Hne Hok ltac:(lia)) as (ops' & Eo & A & O & N & Z0).
      assert (Hcp : filter is_copy ops' = filter is_copy ops) by (rewrite <- !atoms_copies, A; reflexivity).
      unfold transcode. rewrite E. unfold wlift. cbn [wbind fst]. rewrite Eo. cbn [wbind].
      destruct (write_all_release cd sc f seg ops' Hsc O) as (b & ->); [|eexists; reflexivity].
      destruct Hsz as [Hsz|Hsz]; [left; lia|right]. rewrite Forall_forall in *. intros x Hx. destruct (N x Hx) as [Hy|Hy]; [|exact Hy]. apply Hsz.
      assert (In x (filter is_copy ops)) as G by (rewrite <- Hcp; apply filter_In; auto). now apply filter_In in G.
  - intro Hn. unfold transcode, wlift. destruct (E2 Hn) as [(e & E)|[E R]]; rewrite E; cbn [wbind fst snd]; (split; [reflexivity|]); [left; eauto|right; auto].
Qed.

(** The panics occur on patches that apply_patch answers with an error (a copy beyond the output), and even on a patch that applies: its last operation copies
    nothing, from the end of the output. So a caller cannot exclude them by applying the patch first. *)
Definition far_patch : list Z := [0; 2; 3; 129; 5; 66; 0].
Definition nothing_patch : list Z := [0; 3; 2; 129; 5; 65; 0; 64; 0; 0; 4].
Theorem C79_refuted : forall cd src,
  (apply_patch Release cd far_patch (Some src) empty_sink = (mkSink [5] 1, Err EOF) /\ merger_new Release cd far_patch = Panic) /\
  (applies Release cd nothing_patch src [5; 5] /\ merger_new Release cd nothing_patch = Panic).
Proof. intros cd src. split; [split; vm_compute; reflexivity|]. split; [exists 2; vm_compute; reflexivity|vm_compute; reflexivity]. Qed.
(** With non-empty operations the second kind does not occur: what applies to any source is taken. *)
Theorem C79_what_applies_fits : forall src ops out, Forall op_ok ops -> Forall (fun o => 1 <= op_len o) ops -> run_ops src [] ops = Some out -> out_fit 0 ops = true.
Proof.
  intros src ops out Hok Hne. change 0 with (zlen (@nil Z)). generalize (@nil Z). revert Hok. induction Hne as [|o ops Ho Hne IH]; intros Hok acc H; [reflexivity|].
  inversion Hok as [|? ? Hk1 Hk2]; subst. cbn [run_ops] in H. destruct (op_bytes src acc o) as [bs|] eqn:E; [|discriminate]. cbn [out_fit].
  assert (Hz : zlen bs = op_len o) by (apply (op_bytes_len src acc o bs); [apply op_ok_nonneg, Hk1|exact E]).
  specialize (IH Hk2 (acc ++ bs) H). rewrite zlen_app, Hz in IH. rewrite IH, andb_true_r.
  destruct o as [|?|[] a n]; try reflexivity. cbn [op_bytes op_len] in *. unfold in_range in E. match type of E with (if ?c then _ else _) = _ => destruct c eqn:Ec end; [lia|discriminate].
Qed.

(** A codec as the theorems ask for; a patch that is taken, then one whose copies are inside the first one's output (merging goes on), then bytes that are no patch (rejected), one of them with a panic. *)
Lemma toy_fine : codecs_fine toy.
Proof.
  assert (D : forall bs, toy_dec bs <> Panic /\ toy_dec bs <> Diverge).
  { assert (G : forall n bs, (length bs <= n)%nat -> toy_dec bs <> Panic /\ toy_dec bs <> Diverge); [|intro bs; exact (G _ bs (le_n _))].
    induction n as [|n IH]; intros bs H; [destruct bs; [split; discriminate|cbn in H; lia]|].
    destruct bs as [|[|[| |]|] bs]; cbn [toy_dec]; try (split; discriminate). destruct bs as [|b bs]; [split; discriminate|]. destruct (IH bs) as [I1 I2]; [cbn in H; lia|].
    destruct (toy_dec bs) as [[x t]|e| |]; cbn [bind]; try (split; discriminate); congruence. }
  split; [|split]; [|exact D|exact D]. intro bs. cbn [toy zstd_open]. unfold toy_open. split; intro H;
    repeat match type of H with context [match ?x with _ => _ end] => destruct x; try discriminate H end; discriminate H.
Qed.
Definition u_new : list Z := [0; 3; 8; 2; 0; 130; 1; 2; 68; 0].
Definition u_old : list Z := [0; 2; 6; 3; 4; 67; 0].
Definition u_bad : list Z := [8; 1; 1; 0; 1; 1; 1; 0].
Example C79_example : codecs_fine toy /\ codecs_bytes toy /\ codecs_shrink toy /\
  reads_as Release toy u_new [Copy Dict 0 2; Add [1; 2]; Copy Output 0 4] /\ out_fit 0 [Copy Dict 0 2; Add [1; 2]; Copy Output 0 4] = true /\
  (exists g g', merger_new Release toy u_new = Ok (Open g) /\ reached toy g /\ merger_finish g = [Copy Dict 0 2; Add [1; 2]; Copy Dict 0 2; Add [1; 2]] /\
     reads_as Release toy u_old [Copy Dict 2 3; Copy Output 0 3] /\ dict_fits (ops_len [Copy Dict 2 3; Copy Output 0 3]) (merger_finish g) = true /\
     merger_merge Release toy g u_old = Ok (Open g') /\ reached toy g' /\ merger_finish g' = [Copy Dict 2 2; Add [1; 2]; Copy Dict 2 2; Add [1; 2]] /\
     dict_fits (ops_len [Copy Dict 0 1]) (merger_finish g') = false /\ merger_merge Release toy g' [0; 1; 1; 1; 0] = Panic) /\
  ~ readable toy u_bad /\ merger_new Release toy u_bad = Panic /\ ~ readable toy [0; 1] /\ merger_new Release toy [0; 1] = Err EOF.
Proof.
  split; [exact toy_fine|]. split; [apply C54_example|]. split; [apply C54_example|].
  assert (R1 : reads_as Release toy u_new [Copy Dict 0 2; Add [1; 2]; Copy Output 0 4]).
  { exists [([Copy Dict 0 2; Add [1; 2]; Copy Output 0 4], mkHeader 0 Interleaved false 3 0 8)], []. split; [|reflexivity]. apply pr_last; vm_compute; reflexivity. }
  assert (R2 : reads_as Release toy u_old [Copy Dict 2 3; Copy Output 0 3]).
  { exists [([Copy Dict 2 3; Copy Output 0 3], mkHeader 0 Interleaved false 2 0 6)], []. split; [|reflexivity]. apply pr_last; vm_compute; reflexivity. }
  assert (NR : forall bs, (forall x, next_section Release toy bs <> Ok x) -> ~ readable toy bs).
  { intros bs H (ops & secs & r & Hp & _). destruct Hp as [bs ops' h r' E _|bs ops' h r' secs' r'' E _ _]; now apply (H (ops', h, r')). }
  split; [exact R1|]. split; [reflexivity|]. split.
  - set (g := mkMerger [(0, Copy Dict 0 2); (2, Add [1; 2]); (4, Copy Dict 0 2); (6, Add [1; 2])] [0; 2]).
    set (g' := mkMerger [(0, Copy Dict 2 2); (2, Add [1; 2]); (4, Copy Dict 2 2); (6, Add [1; 2])] [0; 2]).
    assert (E1 : merger_new Release toy u_new = Ok (Open g)) by (vm_compute; reflexivity).
    assert (E2 : merger_merge Release toy g u_old = Ok (Open g')) by (vm_compute; reflexivity).
    assert (G1 : reached toy g) by (apply (re_new toy u_new); [apply byteb_ok; reflexivity|exact E1]).
    exists g, g'. split; [exact E1|]. split; [exact G1|]. split; [reflexivity|]. split; [exact R2|]. split; [reflexivity|]. split; [exact E2|]. split.
    { apply (re_merge toy g u_old [Copy Dict 2 3; Copy Output 0 3]); [exact G1|apply byteb_ok; reflexivity|exact R2|repeat constructor; cbn; lia|vm_compute; reflexivity|exact E2]. }
    split; [reflexivity|]. split; [reflexivity|]. vm_compute. reflexivity.
  - split; [apply NR; intros x; vm_compute; discriminate|]. split; [vm_compute; reflexivity|]. split; [apply NR; intros x; vm_compute; discriminate|]. vm_compute. reflexivity.
Qed.

Print Assumptions C79_new_untrusted.
Print Assumptions C79_merge_untrusted.
Print Assumptions C79_transcode_untrusted.
Print Assumptions C79_refuted.
Print Assumptions C79_what_applies_fits.
