(** Targets with 32-bit pointers: applying patches. Property C104 (the encoder side, C103, is in T32Enc.v). *)
From Verif Require Import Base Spec SpecEnc MCommon MWriter MReader MDecoder MOpMaker MHasher MHashmap MTrgtMatcher MSrcMatcher MEncInner MEncode SpecApi SpecMerge M32
  PBase PCommon PStream PSection PWriter PDecoder PPatch PHasher PHashmap PTotal PMerge3 PMerge4 PVcdiff PMode TEncode TTrunc TMatch TMerge TTotal PBytes TOff.
Ltac Zify.zify_post_hook ::= idtac.
Arguments Z.add : simpl never.
Arguments Z.sub : simpl never.
Arguments Z.mul : simpl never.
Arguments Z.pow : simpl never.
Arguments Z.div : simpl never.

(** ** C104: specification *)
(** Some section of the patch has smdiff secondary compression and its decompressed content has 2 GiB or more (it is decompressed into memory, which no 32-bit
    process can hold: Vec growth panics). *)
Definition section_too_big (m : mode) (cd : codecs) (patch : list Z) : Prop :=
  exists secs bs h rest, sections_read (next_section m cd) patch secs bs /\ read_section_header m bs = Ok (h, rest) /\ h_comp h = 1 /\
    2 ^ 31 <= zlen (sbuf (fst (apply_no_sec_comp m None rest (mkSink [] 0)))).

(** ** One operation at a time *)
Definition fetch (dict : option (list Z)) (s : sink) (o : op) : res (list Z) :=
  match o with
  | Add bs => Ok bs
  | Run b n => Ok (rep b n)
  | Copy Dict a n => match dict with None => Panic | Some d => read_at d a n end
  | Copy Output a n => read_at (sbuf s) a n
  end.
Definition place (s : sink) (pos : Z) (o : op) : sink := if is_out_copy o then sink_seek s pos else s.
Lemma step64 dict o rest s pos : op_nonneg o -> apply_ops_loop dict (o :: rest) s pos =
  match fetch dict s o with
  | Ok b => apply_ops_loop dict rest (sink_write (place s pos o) b) (pos + op_len o)
  | Err e => (s, pos, Err e) | Panic => (s, pos, Panic) | Diverge => (s, pos, Diverge)
  end.
Proof. intros _. destruct o as [bs|b n|[] a n]; cbn [apply_ops_loop fetch place is_out_copy op_len]; try reflexivity; destruct dict; reflexivity. Qed.
Lemma step32 m dict o rest s pos : apply_ops_loop32 m dict (o :: rest) s pos =
  match fetch dict s o with
  | Ok b => let s' := sink_write (place s pos o) b in
            match pos_add m pos (op_len o) with Ok pos => apply_ops_loop32 m dict rest s' pos | Err e => (s', pos, Err e) | Panic => (s', pos, Panic) | Diverge => (s', pos, Diverge) end
  | Err e => (s, pos, Err e) | Panic => (s, pos, Panic) | Diverge => (s, pos, Diverge)
  end.
Proof. destruct o as [bs|b n|[] a n]; cbn [apply_ops_loop32 fetch place is_out_copy op_len]; try reflexivity; destruct dict; reflexivity. Qed.
Lemma fetch_len dict s o b : op_nonneg o -> fetch dict s o = Ok b -> zlen b = op_len o.
Proof.
  intros Hn E. assert (R : forall l a n, 0 <= a -> 0 <= n -> read_at l a n = Ok b -> zlen b = n).
  { intros l a n Ha Hn' R. unfold read_at, read_exact in R. destruct (n <=? zlen (drop a l)) eqn:En; [|discriminate]. cbn [bind] in R. injection R as <-. rewrite zlen_take by lia. lia. }
  destruct o as [bs|c n|[] a n]; cbn [fetch op_len op_nonneg] in *; [injection E as <-; reflexivity|injection E as <-; rewrite zlen_rep; lia| |now apply (R (sbuf s) a)].
  destruct dict as [d|]; [|discriminate]. now apply (R d a).
Qed.
Lemma fetch_fine dict s o : fetch dict s o <> Diverge.
Proof. destruct o as [bs|c n|[] a n]; cbn [fetch]; try discriminate; [destruct dict; [|discriminate]|]; unfold read_at, read_exact; destruct (_ <=? _); discriminate. Qed.
Lemma write_len s bs : 0 <= spos s -> zlen (sbuf (sink_write s bs)) = Z.max (zlen (sbuf s)) (spos s + zlen bs).
Proof.
  intro H. unfold sink_write. cbn [sbuf]. pose proof (zlen_nonneg bs). pose proof (zlen_nonneg (sbuf s)).
  rewrite !zlen_app, zlen_take_min, zlen_drop_max, zlen_app, zlen_rep. lia.
Qed.
Lemma place_fields s pos o : sbuf (place s pos o) = sbuf s /\ (spos (place s pos o) = spos s \/ spos (place s pos o) = pos).
Proof. unfold place. destruct (is_out_copy o); cbn [sink_seek sbuf spos]; auto. Qed.
Lemma pos_add_cases m pos n : 0 <= pos < 2 ^ 32 -> 0 <= n ->
  (pos + n < 2 ^ 32 /\ pos_add m pos n = Ok (pos + n)) \/ (2 ^ 32 <= pos + n /\ pos_add m pos n = match m with Debug => Panic | Release => Ok ((pos + n) mod 2 ^ 32) end).
Proof.
  intros Hp Hn. destruct (Z_lt_le_dec (pos + n) (2 ^ 32)) as [H|H]; [left|right]; (split; [exact H|]); unfold pos_add.
  - apply arith_u32_ok. lia.
  - unfold arith. replace (to_u32 (pos + n) =? pos + n) with false; [reflexivity|]. symmetry. apply Z.eqb_neq. unfold to_u32. pose proof (Z.mod_pos_bound (pos + n) (2 ^ 32) ltac:(lia)). lia.
Qed.

(** The buffer only grows. *)
Lemma grow32 m dict : forall ops s pos s' pos' r, Forall op_nonneg ops -> 0 <= spos s -> 0 <= pos < 2 ^ 32 -> apply_ops_loop32 m dict ops s pos = (s', pos', r) ->
  zlen (sbuf s) <= zlen (sbuf s') /\ 0 <= spos s' /\ 0 <= pos' < 2 ^ 32.
Proof.
  induction ops as [|o ops IH]; intros s pos s' pos' r Hn Hs Hp E.
  - cbn [apply_ops_loop32] in E. injection E as <- <- _. split; [lia|auto].
  - apply Forall_cons_iff in Hn as [Ho Hn]. rewrite step32 in E. destruct (fetch dict s o) as [b| | |] eqn:Ef; try (injection E as <- <- _; split; [lia|auto]; fail).
    pose proof (fetch_len _ _ _ _ Ho Ef) as Hl. pose proof (zlen_nonneg b). cbv zeta in E. destruct (place_fields s pos o) as [Pb Ps].
    assert (Hs' : 0 <= spos (place s pos o)) by lia. pose proof (write_len (place s pos o) b Hs') as W. rewrite Pb in W.
    assert (Hsw : 0 <= spos (sink_write (place s pos o) b)) by (unfold sink_write; cbn [spos]; lia).
    destruct (pos_add_cases m pos (op_len o) Hp ltac:(lia)) as [[H1 H2]|[H1 H2]]; rewrite H2 in E; [|destruct m].
    + apply IH in E as (A & B); [|assumption|assumption|lia]. split; [lia|exact B].
    + injection E as <- <- _. split; [lia|auto].
    + apply IH in E as (A & B); [|assumption|assumption|apply Z.mod_pos_bound; lia]. split; [lia|exact B].
Qed.
Lemma grow64 dict : forall ops s pos s' pos' r, Forall op_nonneg ops -> spos s = pos -> 0 <= pos -> apply_ops_loop dict ops s pos = (s', pos', r) ->
  zlen (sbuf s) <= zlen (sbuf s') /\ pos <= pos' /\ (pos <= zlen (sbuf s) -> pos' <= zlen (sbuf s')).
Proof.
  induction ops as [|o ops IH]; intros s pos s' pos' r Hn Hs Hp E.
  - cbn [apply_ops_loop] in E. injection E as <- <- _. split; [lia|split; [lia|auto]].
  - apply Forall_cons_iff in Hn as [Ho Hn]. rewrite step64 in E by assumption. destruct (fetch dict s o) as [b| | |] eqn:Ef; try (injection E as <- <- _; split; [lia|split; [lia|auto]]; fail).
    pose proof (fetch_len _ _ _ _ Ho Ef) as Hl. pose proof (zlen_nonneg b). destruct (place_fields s pos o) as [Pb Ps].
    assert (Hs' : spos (place s pos o) = pos) by lia. pose proof (write_len (place s pos o) b ltac:(lia)) as W. rewrite Pb, Hs' in W.
    apply IH in E as (A & B & C); [|assumption|unfold sink_write; cbn [spos]; lia|lia]. split; [lia|]. split; [lia|]. intros _. apply C. lia.
Qed.
(** The two decoders agree, or both buffers have 4 GiB. With overflow checks the 32-bit one has then panicked. *)
Lemma same_ops m dict : forall ops s pos s' pos' r, Forall op_nonneg ops -> spos s = pos -> 0 <= pos < 2 ^ 32 -> apply_ops_loop dict ops s pos = (s', pos', r) ->
  (apply_ops_loop32 m dict ops s pos = (s', pos', r) /\ pos' < 2 ^ 32) \/
  (2 ^ 32 <= pos' /\ 2 ^ 32 <= zlen (sbuf s') /\ exists s1 pos1 r1, apply_ops_loop32 m dict ops s pos = (s1, pos1, r1) /\ 2 ^ 32 <= zlen (sbuf s1) /\ 0 <= pos1 < 2 ^ 32 /\ (m = Debug -> r1 = Panic)).
Proof.
  induction ops as [|o ops IH]; intros s pos s' pos' r Hn Hs Hp E.
  - cbn [apply_ops_loop apply_ops_loop32] in *. injection E as <- <- <-. left. split; [reflexivity|lia].
  - apply Forall_cons_iff in Hn as [Ho Hn]. rewrite step64 in E by assumption. rewrite step32. destruct (fetch dict s o) as [b| | |] eqn:Ef; try (injection E as <- <- <-; left; split; [reflexivity|lia]; fail).
    pose proof (fetch_len _ _ _ _ Ho Ef) as Hl. pose proof (zlen_nonneg b). cbv zeta. destruct (place_fields s pos o) as [Pb Ps].
    assert (Hs' : spos (place s pos o) = pos) by lia. pose proof (write_len (place s pos o) b ltac:(lia)) as W. rewrite Pb, Hs' in W.
    assert (Hsw : spos (sink_write (place s pos o) b) = pos + op_len o) by (unfold sink_write; cbn [spos]; lia).
    destruct (pos_add_cases m pos (op_len o) Hp ltac:(lia)) as [[H1 ->]|[H1 ->]]; [apply IH; auto; lia|]. right.
    pose proof (grow64 _ _ _ _ _ _ _ Hn Hsw ltac:(lia) E) as (G1 & G2 & G3). split; [lia|]. split; [lia|]. destruct m.
    + eexists. eexists. eexists. split; [reflexivity|]. split; [lia|]. split; [lia|]. intros _. reflexivity.
    + destruct (apply_ops_loop32 Release dict ops _ _) as [[s1 pos1] r1] eqn:E1. exists s1, pos1, r1. split; [reflexivity|].
      pose proof (grow32 Release dict ops (sink_write (place s pos o) b) _ _ _ _ Hn ltac:(lia) (Z.mod_pos_bound (pos + op_len o) (2 ^ 32) ltac:(lia)) E1) as (A & _ & B). split; [lia|]. split; [exact B|]. intro; discriminate.
Qed.

(** ** Sections *)
Definition next_nonneg (next : next_t) : Prop := forall bs ops h r, Forall is_byte bs -> next bs = Ok (ops, h, r) -> Forall op_nonneg ops /\ Forall is_byte r.
Lemma typed_nonneg next : next_typed_ok next -> next_nonneg next.
Proof. intros H bs ops h r Hb E. destruct (H _ _ _ _ Hb E). split; [now apply ops_ok_nonneg|assumption]. Qed.

Lemma grow_loop32 m next dict : next_nonneg next -> forall k bs s pos s' r, Forall is_byte bs -> 0 <= pos < 2 ^ 32 -> apply_loop32 m next k dict bs s pos = (s', r) -> zlen (sbuf s) <= zlen (sbuf s').
Proof.
  intro Hnx. induction k as [|k IH]; intros bs s pos s' r Hb Hp E; cbn [apply_loop32] in E; [injection E as <- _; lia|].
  destruct (next bs) as [[[ops h] rest]| | |] eqn:En; try (injection E as <- _; lia). destruct (Hnx _ _ _ _ Hb En) as [Hn Hr].
  destruct (apply_ops32 m dict ops s pos) as [[s1 pos1] r1] eqn:E1. unfold apply_ops32 in E1. apply grow32 in E1 as (A & B & C); [|assumption|cbn [sink_seek spos]; lia|assumption]. cbn [sink_seek sbuf] in A.
  destruct r1; try (injection E as <- _; lia). destruct (h_more h); [|injection E as <- _; lia]. apply IH in E; [lia|assumption|assumption].
Qed.
Lemma grow_loop64 next dict : next_nonneg next -> forall k bs s pos s' r, Forall is_byte bs -> 0 <= pos -> apply_loop next k dict bs s pos = (s', r) -> zlen (sbuf s) <= zlen (sbuf s').
Proof.
  intro Hnx. induction k as [|k IH]; intros bs s pos s' r Hb Hp E; cbn [apply_loop] in E; [injection E as <- _; lia|].
  destruct (next bs) as [[[ops h] rest]| | |] eqn:En; try (injection E as <- _; lia). destruct (Hnx _ _ _ _ Hb En) as [Hn Hr].
  destruct (apply_ops dict ops s pos) as [[s1 pos1] r1] eqn:E1. unfold apply_ops in E1. apply grow64 in E1 as (A & B & C); [|assumption|reflexivity|assumption]. cbn [sink_seek sbuf] in A.
  destruct r1; try (injection E as <- _; lia). destruct (h_more h); [|injection E as <- _; lia]. apply IH in E; [lia|assumption|lia].
Qed.
(** Two section readers that agree except that the first may panic, and then [bad] holds. *)
Lemma same_loop m (bad : list Z -> Prop) next next' dict : next_nonneg next -> (forall bs, Forall is_byte bs -> next' bs = next bs \/ (next' bs = Panic /\ bad bs)) ->
  forall k bs s pos s' r, Forall is_byte bs -> 0 <= pos < 2 ^ 32 -> pos <= zlen (sbuf s) -> apply_loop next k dict bs s pos = (s', r) ->
  apply_loop32 m next' k dict bs s pos = (s', r) \/
  (snd (apply_loop32 m next' k dict bs s pos) = Panic /\ exists secs rest, sections_read next bs secs rest /\ bad rest) \/
  (2 ^ 32 <= zlen (sbuf s') /\ (2 ^ 32 <= zlen (sbuf (fst (apply_loop32 m next' k dict bs s pos)))) /\ (m = Debug -> snd (apply_loop32 m next' k dict bs s pos) = Panic)).
Proof.
  intros Hnx Hnn. assert (Hnx' : next_nonneg next').
  { intros bs ops h r Hb E. destruct (Hnn bs Hb) as [H|[H _]]; rewrite H in E; [|discriminate]. exact (Hnx _ _ _ _ Hb E). }
  induction k as [|k IH]; intros bs s pos s' r Hb Hp Hps E; cbn [apply_loop apply_loop32] in *; [injection E as <- <-; now left|].
  destruct (Hnn bs Hb) as [-> |[-> Hbad]]; [|right; left; split; [reflexivity|]; exists [], bs; split; [constructor|exact Hbad]].
  destruct (next bs) as [[[ops h] rest]| | |] eqn:En; try (injection E as <- <-; now left). destruct (Hnx _ _ _ _ Hb En) as [Hn Hr].
  destruct (apply_ops dict ops s pos) as [[s1 pos1] r1] eqn:E1. unfold apply_ops, apply_ops32 in *.
  pose proof (grow64 dict ops (sink_seek s pos) pos _ _ _ Hn eq_refl (proj1 Hp) E1) as (G1 & G2 & G3). cbn [sink_seek sbuf] in G1, G3.
  destruct (same_ops m dict ops (sink_seek s pos) pos _ _ _ Hn eq_refl Hp E1) as [[E2 Hp1]|(H1 & H2 & s2 & pos2 & r2 & E2 & H3 & H4 & H5)]; rewrite E2.
  - destruct r1; try (injection E as <- <-; now left). destruct (h_more h) eqn:Em; [|injection E as <- <-; now left].
    destruct (IH rest s1 pos1 s' r Hr ltac:(lia) ltac:(lia) E) as [A|[(A & secs & rs & B & C)|A]]; [now left| |right; right; exact A].
    right. left. split; [exact A|]. exists (ops :: secs), rs. split; [|exact C]. econstructor; eassumption.
  - right. right. split.
    { destruct r1; try (injection E as <- <-; lia). destruct (h_more h); [|injection E as <- <-; lia]. apply grow_loop64 in E; [lia|assumption|assumption|lia]. }
    destruct r2 as [u| | |]; cbn [fst snd]; try (split; [lia|]; intro Hm; specialize (H5 Hm); congruence; fail).
    destruct (h_more h); cbn [fst snd]; [|split; [lia|]; intro Hm; specialize (H5 Hm); congruence].
    split; [|intro Hm; specialize (H5 Hm); congruence]. destruct (apply_loop32 m next' k dict rest s2 pos2) as [s3 r3] eqn:E3. cbn [fst]. apply grow_loop32 in E3; [lia|assumption|assumption|assumption].
Qed.
Lemma next32_same m cd bs : Forall is_byte bs -> next_section32 m cd bs = next_section m cd bs \/
  (next_section32 m cd bs = Panic /\ exists h rest, read_section_header m bs = Ok (h, rest) /\ h_comp h = 1 /\ 2 ^ 31 <= zlen (sbuf (fst (apply_no_sec_comp m None rest (mkSink [] 0))))).
Proof.
  intro Hb. unfold next_section32, next_section. destruct (read_section_header m bs) as [[h r]| | |] eqn:Eh; cbn [bind]; try (now left).
  destruct (h_comp h =? 1) eqn:Ec; [|now left].
  assert (Hr : Forall is_byte r) by (eapply streaming_rest_bytes; [apply streaming_header|exact Hb|exact Eh]).
  destruct (Z_lt_le_dec (zlen (sbuf (fst (apply_no_sec_comp m None r (mkSink [] 0))))) (2 ^ 31)) as [Hs|Hs].
  - left. unfold apply_no_sec_comp32. unfold apply_no_sec_comp in *. destruct (apply_loop (read_section m) (S (length r)) None r (mkSink [] 0) 0) as [s q] eqn:E. cbn [fst] in Hs.
    destruct (same_loop m (fun _ => False) (read_section m) (read_section m) None (typed_nonneg _ (read_section_typed m)) (fun bs _ => or_introl eq_refl) _ r (mkSink [] 0) 0 s q Hr ltac:(lia) ltac:(cbn [sbuf]; rewrite (@zlen_nil Z); lia) E) as [-> |[(_ & ? & ? & _ & [])|[A _]]]; [|lia].
    replace (zlen (sbuf s) >=? 2 ^ 31) with false by lia. destruct q; reflexivity.
  - right. split; [|exists h, r; repeat split; [lia|exact Hs]]. unfold apply_no_sec_comp32. unfold apply_no_sec_comp in Hs. destruct (apply_loop (read_section m) (S (length r)) None r (mkSink [] 0) 0) as [s q] eqn:E. cbn [fst] in Hs.
    destruct (same_loop m (fun _ => False) (read_section m) (read_section m) None (typed_nonneg _ (read_section_typed m)) (fun bs _ => or_introl eq_refl) _ r (mkSink [] 0) 0 s q Hr ltac:(lia) ltac:(cbn [sbuf]; rewrite (@zlen_nil Z); lia) E) as [-> |[(_ & ? & ? & _ & [])|(A & B & _)]].
    + replace (zlen (sbuf s) >=? 2 ^ 31) with true by lia. reflexivity.
    + destruct (apply_loop32 m (read_section m) (S (length r)) None r (mkSink [] 0) 0) as [s2 q2]. cbn [fst] in B. replace (zlen (sbuf s2) >=? 2 ^ 31) with true by lia. reflexivity.
Qed.

(** ** C104. As long as the output stays below 4 GiB, applying a patch on a 32-bit machine has the same outcome and writes the same bytes as on a 64-bit machine, unless a section
    inflates to 2 GiB in memory (panic). *)
Theorem C104_same_below_4GiB : forall m cd patch dict s s' r, codecs_bytes cd -> Forall is_byte patch ->
  apply_patch m cd patch dict s = (s', r) -> zlen (sbuf s') < 2 ^ 32 ->
  apply_patch32 m cd patch dict s = (s', r) \/ (snd (apply_patch32 m cd patch dict s) = Panic /\ section_too_big m cd patch).
Proof.
  intros m cd patch dict s s' r Hc Hb E Hl. unfold apply_patch, apply_patch32 in *. destruct (apply_loop (next_section m cd) (S (length patch)) dict patch s 0) as [s1 q] eqn:E1. injection E as <- <-.
  destruct (same_loop m _ _ (next_section32 m cd) dict (typed_nonneg _ (next_section_typed m cd Hc)) (next32_same m cd) _ patch s 0 s1 q Hb ltac:(lia) (zlen_nonneg _) E1) as [-> |[(A & secs & rs & B & h & rest & C)|[A _]]]; [now left| |lia].
  right. destruct (apply_loop32 _ _ _ _ _ _ _) as [s2 q2]. cbn [snd] in A. subst q2. split; [reflexivity|]. exists secs, rs, h, rest. tauto.
Qed.
Lemma debug_ops dict : forall ops s pos s' pos' u, Forall op_nonneg ops -> spos s = pos -> zlen (sbuf s) = pos -> pos < 2 ^ 32 -> apply_ops_loop32 Debug dict ops s pos = (s', pos', Ok u) ->
  spos s' = pos' /\ zlen (sbuf s') = pos' /\ pos' < 2 ^ 32.
Proof.
  induction ops as [|o ops IH]; intros s pos s' pos' u Hn Hs Hl Hp E.
  - cbn [apply_ops_loop32] in E. injection E as <- <- _. auto.
  - apply Forall_cons_iff in Hn as [Ho Hn]. rewrite step32 in E. destruct (fetch dict s o) as [b| | |] eqn:Ef; try discriminate.
    pose proof (fetch_len _ _ _ _ Ho Ef) as Hlb. pose proof (zlen_nonneg b). pose proof (zlen_nonneg (sbuf s)). cbv zeta in E. destruct (place_fields s pos o) as [Pb Ps].
    pose proof (write_len (place s pos o) b ltac:(lia)) as W. rewrite Pb in W.
    destruct (pos_add_cases Debug pos (op_len o) ltac:(lia) ltac:(lia)) as [[H1 H2]|[H1 H2]]; rewrite H2 in E; [|discriminate].
    apply IH in E; auto; [unfold sink_write; cbn [spos]; lia|lia].
Qed.
Lemma debug_loop next dict : next_nonneg next -> forall k bs s pos s' r, Forall is_byte bs -> zlen (sbuf s) = pos -> pos < 2 ^ 32 -> apply_loop32 Debug next k dict bs s pos = (s', Ok r) -> zlen (sbuf s') < 2 ^ 32.
Proof.
  intro Hnx. induction k as [|k IH]; intros bs s pos s' r Hb Hl Hp E; cbn [apply_loop32] in E; [discriminate|].
  destruct (next bs) as [[[ops h] rest]| | |] eqn:En; try discriminate. destruct (Hnx _ _ _ _ Hb En) as [Hn Hr].
  destruct (apply_ops32 Debug dict ops s pos) as [[s1 pos1] [u| | |]] eqn:E1; try discriminate. unfold apply_ops32 in E1.
  destruct (debug_ops dict ops (sink_seek s pos) pos _ _ _ Hn eq_refl Hl Hp E1) as (A & B & C). destruct (h_more h); [|injection E as <- _; lia]. eapply IH; [exact Hr|exact B|exact C|exact E].
Qed.
(** With overflow checks a patch with 4 GiB of output or more is never applied: the decoder panics. *)
Theorem C104_checked_builds_stop : forall cd patch src out, codecs_bytes cd -> Forall is_byte patch -> applies Debug cd patch src out -> 2 ^ 32 <= zlen out ->
  snd (apply_patch32 Debug cd patch (Some src) (mkSink [] 0)) = Panic.
Proof.
  intros cd patch src out Hc Hb [p E] Hl. unfold apply_patch, apply_patch32 in *. destruct (apply_loop (next_section Debug cd) (S (length patch)) (Some src) patch (mkSink [] 0) 0) as [s1 q] eqn:E1. destruct q as [rest| | |]; cbn [bind] in E; try discriminate. injection E as ->.
  destruct (same_loop Debug _ _ (next_section32 Debug cd) (Some src) (typed_nonneg _ (next_section_typed Debug cd Hc)) (next32_same Debug cd) _ patch (mkSink [] 0) 0 _ _ Hb ltac:(lia) (zlen_nonneg _) E1) as [A|[(A & _)|(_ & _ & A)]].
  - exfalso. apply debug_loop in A; [cbn [sbuf] in A; lia| |exact Hb|reflexivity|lia]. intros bs ops h r Hb' En. destruct (next32_same Debug cd bs Hb') as [H|[H _]]; rewrite H in En; [|discriminate]. exact (typed_nonneg _ (next_section_typed Debug cd Hc) _ _ _ _ Hb' En).
  - destruct (apply_loop32 _ _ _ _ _ _ _) as [s2 q2]. cbn [snd] in A. subst q2. reflexivity.
  - specialize (A eq_refl). destruct (apply_loop32 _ _ _ _ _ _ _) as [s2 q2]. cbn [snd] in A. subst q2. reflexivity.
Qed.
(** ** Without overflow checks *)
Lemma op_len_pos o : op_nonneg o -> 0 <= op_len o.
Proof. destruct o as [bs|c n|c a n]; cbn [op_len op_nonneg]; [pose proof (zlen_nonneg bs); lia|lia|lia]. Qed.
Lemma ops_len_pos ops : Forall op_nonneg ops -> 0 <= ops_len ops.
Proof. induction 1 as [|y l Hy _ IHl]; [cbn; lia|]. change (ops_len (y :: l)) with (op_len y + ops_len l). destruct y as [bs|c n|c a n]; cbn [op_len op_nonneg] in *; [pose proof (zlen_nonneg bs); lia|lia|lia]. Qed.
(** [t] is the true position; the sink stands at least [x] before it. *)
Lemma release_ops dict : forall ops s t x, Forall op_nonneg ops -> 0 <= spos s <= t - x -> 0 <= x -> t mod 2 ^ 32 <= t - x -> 0 <= t ->
  forall s' pos' r, apply_ops_loop32 Release dict ops s (t mod 2 ^ 32) = (s', pos', r) ->
  zlen (sbuf s') <= Z.max (zlen (sbuf s)) (t + ops_len ops - x) /\ (forall u, r = Ok u -> pos' = (t + ops_len ops) mod 2 ^ 32).
Proof.
  induction ops as [|o ops IH]; intros s t x Hn Hs Hx Ht Hx' s' pos' r E.
  - cbn [apply_ops_loop32 ops_len fold_right] in *. injection E as <- <- _. split; [lia|]. intros _ _. f_equal. lia.
  - apply Forall_cons_iff in Hn as [Ho Hn]. rewrite step32 in E.
    pose proof (ops_len_pos _ Hn) as Hol.
    change (ops_len (o :: ops)) with (op_len o + ops_len ops).
    destruct (fetch dict s o) as [b| | |] eqn:Ef; try (injection E as <- <- <-; split; [|intros ? ?; discriminate]; pose proof (op_len_pos _ Ho); lia).
    pose proof (fetch_len _ _ _ _ Ho Ef) as Hlb. pose proof (zlen_nonneg b). pose proof (zlen_nonneg (sbuf s)). cbv zeta in E. destruct (place_fields s (t mod 2 ^ 32) o) as [Pb Ps].
    pose proof (Z.mod_pos_bound t (2 ^ 32) ltac:(lia)) as Hm.
    pose proof (write_len (place s (t mod 2 ^ 32) o) b ltac:(lia)) as W. rewrite Pb in W.
    assert (Hmod : pos_add Release (t mod 2 ^ 32) (op_len o) = Ok ((t + op_len o) mod 2 ^ 32)).
    { destruct (pos_add_cases Release (t mod 2 ^ 32) (op_len o) Hm ltac:(lia)) as [[H1 ->]|[H1 ->]]; f_equal.
      - rewrite <- (Z.mod_small (t mod 2 ^ 32 + op_len o) (2 ^ 32)) by lia. apply Zplus_mod_idemp_l.
      - apply Zplus_mod_idemp_l. }
    rewrite Hmod in E. assert (Hq : (t + op_len o) mod 2 ^ 32 <= t + op_len o - x).
    { pose proof (Z.mod_le (t mod 2 ^ 32 + op_len o) (2 ^ 32) ltac:(lia) ltac:(lia)) as Q. rewrite Zplus_mod_idemp_l in Q. lia. }
    destruct (IH (sink_write (place s (t mod 2 ^ 32) o) b) (t + op_len o) x Hn ltac:(unfold sink_write; cbn [spos]; lia) Hx Hq ltac:(lia) _ _ _ E) as [A B].
    split; [lia|]. intros u Hu. rewrite (B u Hu). f_equal. lia.
Qed.
Lemma ops_len_app a b : ops_len (a ++ b) = ops_len a + ops_len b.
Proof. induction a as [|x a IH]; [reflexivity|]. change (ops_len ((x :: a) ++ b)) with (op_len x + ops_len (a ++ b)). change (ops_len (x :: a)) with (op_len x + ops_len a). lia. Qed.
Lemma mod_low t : 2 ^ 32 <= t -> 0 <= t mod 2 ^ 32 <= t - 2 ^ 32.
Proof.
  intro H. split; [apply Z.mod_pos_bound; lia|]. pose proof (Z.mod_le (t - 2 ^ 32) (2 ^ 32) ltac:(lia) ltac:(lia)) as Q.
  replace (t - 2 ^ 32) with (t + (-1) * 2 ^ 32) in Q at 1 by lia. rewrite Z_mod_plus_full in Q. exact Q.
Qed.
Lemma secs_nonneg next : next_nonneg next -> forall bs secs rr, patch_read next bs secs rr -> Forall is_byte bs -> Forall (fun s => 0 <= ops_len (fst s)) secs.
Proof.
  intro Hnx. induction 1 as [bs ops h rr En Em|bs ops h rr secs r' En Em Hpr IH]; intro Hb; destruct (Hnx _ _ _ _ Hb En) as [Hn Hr]; constructor; try exact (ops_len_pos _ Hn); auto.
Qed.
Lemma secs_len_pos (secs : list (list op * header)) : Forall (fun s => 0 <= ops_len (fst s)) secs -> 0 <= ops_len (concat (map fst secs)).
Proof. induction 1 as [|x l Hx _ IH]; [cbn; lia|]. cbn [map concat]. rewrite ops_len_app. lia. Qed.
(** Every section that starts behind 4 GiB is written too early. *)
Lemma release_late next next' dict : (forall bs, Forall is_byte bs -> next' bs = next bs \/ next' bs = Panic) -> next_nonneg next ->
  forall bs secs rr, patch_read next bs secs rr -> Forall is_byte bs -> forall k s t L, 2 ^ 32 <= t -> zlen (sbuf s) <= L ->
  zlen (sbuf (fst (apply_loop32 Release next' k dict bs s (t mod 2 ^ 32)))) <= Z.max L (t + ops_len (concat (map fst secs)) - 2 ^ 32).
Proof.
  intros Hnn Hnx. induction 1 as [bs ops h rr En Em|bs ops h rr secs r' En Em Hpr IH]; intros Hb k s t L Ht Hl; destruct (Hnx _ _ _ _ Hb En) as [Hn Hr]; pose proof (ops_len_pos _ Hn) as Hop;
    cbn [map concat fst]; rewrite ops_len_app; pose proof (mod_low t Ht) as Hm; (destruct k as [|k]; cbn [apply_loop32]; [cbn [fst]; lia|]);
    (destruct (Hnn bs Hb) as [-> | ->]; [|cbn [fst]; lia]); rewrite En; unfold apply_ops32;
    destruct (apply_ops_loop32 Release dict ops (sink_seek s (t mod 2 ^ 32)) (t mod 2 ^ 32)) as [[s1 pos1] r1] eqn:E1;
    destruct (release_ops dict ops (sink_seek s (t mod 2 ^ 32)) t (2 ^ 32) Hn ltac:(cbn [sink_seek spos]; lia) ltac:(lia) ltac:(lia) ltac:(lia) _ _ _ E1) as [A B]; cbn [sink_seek sbuf] in A; rewrite Em.
  - change (ops_len []) with 0. destruct r1; cbn [fst]; lia.
  - pose proof (secs_len_pos _ (secs_nonneg _ Hnx _ _ _ Hpr Hr)) as Hge. destruct r1 as [u| | |]; cbn [fst]; try lia. rewrite (B u eq_refl).
    specialize (IH Hr k s1 (t + ops_len ops) (Z.max L (t + ops_len ops - 2 ^ 32)) ltac:(lia) ltac:(lia)). lia.
Qed.
Lemma release_loop next next' dict : (forall bs, Forall is_byte bs -> next' bs = next bs \/ next' bs = Panic) -> next_nonneg next ->
  forall pre bs post rr, patch_read next bs (pre ++ post) rr -> Forall is_byte bs -> forall k s t, 0 <= t -> zlen (sbuf s) <= t -> 2 ^ 32 <= t + ops_len (concat (map fst pre)) ->
  zlen (sbuf (fst (apply_loop32 Release next' k dict bs s (t mod 2 ^ 32)))) <= Z.max (t + ops_len (concat (map fst pre))) (t + ops_len (concat (map fst (pre ++ post))) - 2 ^ 32).
Proof.
  intros Hnn Hnx. induction pre as [|[ops0 h0] pre IH]; intros bs post rr Hp Hb k s t Ht Hl Hbig.
  - cbn [app]. change (ops_len (concat (map fst []))) with 0 in *. rewrite Z.add_0_r. eapply release_late; eauto; lia.
  - cbn [app] in Hp. cbn [map concat fst app] in *. rewrite !ops_len_app in *.
    assert (Hnext : exists h rest, next bs = Ok (ops0, h, rest) /\ ((h_more h = false /\ pre ++ post = []) \/ (h_more h = true /\ patch_read next rest (pre ++ post) rr))).
    { inversion Hp; subst; eexists; eexists; (split; [eassumption|]); [left|right]; auto. }
    destruct Hnext as (h & rest & En & Hcase). destruct (Hnx _ _ _ _ Hb En) as [Hn Hr]. pose proof (ops_len_pos _ Hn) as Hop.
    assert (Hpp : 0 <= ops_len (concat (map fst pre))).
    { apply secs_len_pos. pose proof (secs_nonneg _ Hnx _ _ _ Hp Hb) as Q. inversion Q; subst. match goal with H : Forall _ (pre ++ post) |- _ => now apply Forall_app in H end. }
    destruct k as [|k]; cbn [apply_loop32]; [cbn [fst]; lia|]. destruct (Hnn bs Hb) as [-> | ->]; [|cbn [fst]; lia]. rewrite En. unfold apply_ops32.
    destruct (apply_ops_loop32 Release dict ops0 (sink_seek s (t mod 2 ^ 32)) (t mod 2 ^ 32)) as [[s1 pos1] r1] eqn:E1.
    assert (Hm : 0 <= t mod 2 ^ 32 <= t) by (split; [apply Z.mod_pos_bound; lia|apply Z.mod_le; lia]).
    destruct (release_ops dict ops0 (sink_seek s (t mod 2 ^ 32)) t 0 Hn ltac:(cbn [sink_seek spos]; lia) ltac:(lia) ltac:(lia) Ht _ _ _ E1) as [A B]. cbn [sink_seek sbuf] in A.
    destruct r1 as [u| | |]; cbn [fst]; try lia. destruct Hcase as [[-> _]|[-> Hpr]]; [cbn [fst]; lia|]. rewrite (B u eq_refl).
    specialize (IH rest post rr Hpr Hr k s1 (t + ops_len ops0) ltac:(lia) ltac:(lia) ltac:(lia)). lia.
Qed.
(** Without overflow checks: a patch with a section boundary at or behind 4 GiB (and output after it) is never applied correctly on a 32-bit machine: whatever the decoder reports,
    the output is too short. *)
Theorem C104_unchecked_builds_corrupt : forall cd patch src out before after rest, codecs_bytes cd -> Forall is_byte patch -> applies Release cd patch src out ->
  patch_read (next_section Release cd) patch (before ++ after) rest -> 2 ^ 32 <= ops_len (concat (map fst before)) < zlen out ->
  zlen (sbuf (fst (apply_patch32 Release cd patch (Some src) (mkSink [] 0)))) < zlen out.
Proof.
  intros cd patch src out before after rest Hc Hb Ha Hp Hl. destruct (patch_read_typed Release cd Hc _ _ _ Hp Hb) as [Hok _].
  assert (HR : reads_as Release cd patch (concat (map fst (before ++ after)))) by (exists (before ++ after), rest; auto).
  destruct (applies_extract Release cd patch src out _ Ha HR Hok) as [_ Hrun]. pose proof (run_ops_len src _ [] _ (ops_ok_nonneg _ Hok) Hrun) as Hz. rewrite (@zlen_nil Z) in Hz.
  unfold apply_patch32. pose proof (release_loop (next_section Release cd) (next_section32 Release cd) (Some src) (fun bs H => match next32_same Release cd bs H with or_introl a => or_introl a | or_intror (conj b _) => or_intror b end)
    (typed_nonneg _ (next_section_typed Release cd Hc)) before patch after rest Hp Hb (S (length patch)) (mkSink [] 0) 0 ltac:(lia) ltac:(cbn [sbuf]; rewrite (@zlen_nil Z); lia) ltac:(lia)) as A.
  change (0 mod 2 ^ 32) with 0 in A. destruct (apply_loop32 _ _ _ _ _ _ _) as [s2 q2]. cbn [fst] in *. lia.
Qed.
(** It is not noticed: without copies from the output the decoder reports success (unless a section inflates to 2 GiB in memory). *)
Lemma silent_ops d : forall ops s1 p1 s1' p1' u s2 p2, Forall op_nonneg ops -> Forall (fun o => is_out_copy o = false) ops -> 0 <= p2 < 2 ^ 32 -> 0 <= spos s2 ->
  apply_ops_loop (Some d) ops s1 p1 = (s1', p1', Ok u) -> exists s2' p2', apply_ops_loop32 Release (Some d) ops s2 p2 = (s2', p2', Ok tt) /\ 0 <= p2' < 2 ^ 32.
Proof.
  induction ops as [|o ops IH]; intros s1 p1 s1' p1' u s2 p2 Hn Ho Hp Hs E; [exists s2, p2; split; [reflexivity|exact Hp]|].
  apply Forall_cons_iff in Hn as [Hno Hn]. apply Forall_cons_iff in Ho as [Hoo Ho]. rewrite step64 in E by assumption. rewrite step32.
  assert (Ef : fetch (Some d) s2 o = fetch (Some d) s1 o) by (destruct o as [bs|c n|[] a n]; [reflexivity|reflexivity|reflexivity|discriminate Hoo]). rewrite Ef.
  destruct (fetch (Some d) s1 o) as [b| | |]; try discriminate. cbv zeta. pose proof (op_len_pos _ Hno). pose proof (zlen_nonneg b). destruct (place_fields s2 p2 o) as [_ Ps].
  destruct (pos_add_cases Release p2 (op_len o) Hp ltac:(lia)) as [[H1 ->]|[H1 ->]].
  - eapply IH; eauto; [lia|unfold sink_write; cbn [spos]; lia].
  - eapply IH; eauto; [apply Z.mod_pos_bound; lia|unfold sink_write; cbn [spos]; lia].
Qed.
Theorem C104_unnoticed : forall cd patch src out ops, codecs_bytes cd -> Forall is_byte patch -> applies Release cd patch src out -> reads_as Release cd patch ops ->
  Forall (fun o => is_out_copy o = false) ops -> ~ section_too_big Release cd patch ->
  snd (apply_patch32 Release cd patch (Some src) (mkSink [] 0)) = Ok tt.
Proof.
  intros cd patch src out ops Hc Hb [p E] (secs & rest & Hp & ->) Ho Hbig. unfold apply_patch, apply_patch32 in *.
  destruct (apply_loop (next_section Release cd) (S (length patch)) (Some src) patch (mkSink [] 0) 0) as [s1 q] eqn:E1. destruct q as [rest'| | |]; cbn [bind] in E; try discriminate. injection E as ->.
  assert (G : forall bs secs rr, patch_read (next_section Release cd) bs secs rr -> Forall is_byte bs -> ~ section_too_big Release cd bs -> Forall (fun o => is_out_copy o = false) (concat (map fst secs)) ->
    forall k s1 p1 s1' r s2 p2, apply_loop (next_section Release cd) k (Some src) bs s1 p1 = (s1', Ok r) -> 0 <= p2 < 2 ^ 32 -> snd (apply_loop32 Release (next_section32 Release cd) k (Some src) bs s2 p2) = Ok r).
  { clear - Hc. induction 1 as [bs ops h rr En Em|bs ops h rr secs r' En Em Hpr IH]; intros Hb Hbig Ho k s1 p1 s1' r s2 p2 E Hp2; (destruct k as [|k]; cbn [apply_loop apply_loop32] in *; [discriminate|]); rewrite En in E;
      cbn [map concat fst] in Ho; apply Forall_app in Ho as [Ho Hor]; destruct (typed_nonneg _ (next_section_typed Release cd Hc) _ _ _ _ Hb En) as [Hn Hr];
      (destruct (next32_same Release cd bs Hb) as [-> |(_ & h1 & rst & Q)]; [|exfalso; apply Hbig; exists [], bs, h1, rst; split; [constructor|tauto]]); rewrite En;
      unfold apply_ops, apply_ops32 in *; destruct (apply_ops_loop (Some src) ops (sink_seek s1 p1) p1) as [[s3 p3] [u| | |]] eqn:E3; try discriminate;
      destruct (silent_ops src ops _ _ _ _ u (sink_seek s2 p2) p2 Hn Ho Hp2 ltac:(cbn [sink_seek spos]; lia) E3) as (s4 & p4 & -> & Hp4); rewrite Em in *.
    - injection E as _ <-. reflexivity.
    - eapply IH; eauto. intros (se & b2 & h2 & r2 & Q1 & Q2). apply Hbig. exists (ops :: se), b2, h2, r2. split; [econstructor; eassumption|exact Q2]. }
  specialize (G _ _ _ Hp Hb Hbig Ho _ _ _ _ _ (mkSink [] 0) 0 E1 ltac:(lia)). destruct (apply_loop32 _ _ _ _ _ _ _) as [s2 q2]. cbn [snd] in *. subst q2. reflexivity.
Qed.
(** For what [encode] writes: right below 4 GiB; a panic from there with overflow checks; wrong from 4 GiB + 16 MiB without. *)
Theorem C104_encoded_patches : forall m m' cd c src trgt patch, codecs_bytes cd -> comp_lossless cd (cf_comp c) trgt -> comp_bytes cd (cf_comp c) ->
  Forall is_byte trgt -> zlen trgt < 2 ^ 63 -> zlen src < 2 ^ 63 -> encode m cd c (Some src) trgt = (patch, Ok tt) ->
  (zlen trgt < 2 ^ 32 -> (exists p, apply_patch32 m' cd patch (Some src) (mkSink [] 0) = (mkSink trgt p, Ok tt)) \/
     (snd (apply_patch32 m' cd patch (Some src) (mkSink [] 0)) = Panic /\ section_too_big m' cd patch)) /\
  (2 ^ 32 <= zlen trgt -> snd (apply_patch32 Debug cd patch (Some src) (mkSink [] 0)) = Panic) /\
  (2 ^ 32 + 2 ^ 24 <= zlen trgt -> zlen (sbuf (fst (apply_patch32 Release cd patch (Some src) (mkSink [] 0)))) < zlen trgt).
Proof.
  intros m m' cd c src trgt patch Hcb Hcl Hby Hb Ht Hs E. pose proof (encode_bytes m cd c (Some src) trgt patch Hby Hb Ht Hs E) as Hpb.
  assert (Ha : forall m2, applies m2 cd patch src trgt).
  { intro m2. destruct (C31_encode_apply_roundtrip m m2 cd c (Some src) trgt patch Hcl Hb Ht Hs E [] [] 0) as (p & A). rewrite app_nil_r in A. exists p. rewrite A. unfold drop. now rewrite skipn_nil, app_nil_r. }
  split; [|split].
  - intro Hl. destruct (Ha m') as [p Hp]. destruct (C104_same_below_4GiB m' cd patch (Some src) _ _ _ Hcb Hpb Hp Hl) as [A|A]; [left; exists p; exact A|right; exact A].
  - intro Hl. exact (C104_checked_builds_stop cd patch src trgt Hcb Hpb (Ha Debug) Hl).
  - intro Hl. destruct (C34_encoder_respects_limits m Release cd c (Some src) trgt patch Hcl Hb Ht Hs E) as (secs & Hp & Hall & _ & Htot).
    assert (Hsz : Forall (fun s => ops_len (fst s) < 2 ^ 24) secs).
    { eapply Forall_impl; [|exact Hall]. cbn beta. intros s (_ & _ & _ & H & _). eapply Z.le_lt_trans; [exact H|]. unfold clamp_section, max_win_size, max_inst_size. lia. }
    assert (Hsp : exists before after, secs = before ++ after /\ 2 ^ 32 <= ops_len (concat (map fst before)) < 2 ^ 32 + 2 ^ 24).
    { assert (Hge : 2 ^ 32 + 2 ^ 24 <= 0 + ops_len (concat (map fst secs))) by lia.
      assert (G : forall (l : list (list op * header)) t, Forall (fun s => ops_len (fst s) < 2 ^ 24) l -> t < 2 ^ 32 -> 2 ^ 32 + 2 ^ 24 <= t + ops_len (concat (map fst l)) ->
                  exists before after, l = before ++ after /\ 2 ^ 32 <= t + ops_len (concat (map fst before)) < 2 ^ 32 + 2 ^ 24).
      { clear. induction l as [|s l IH]; intros t Hs Ht Hg; [cbn in Hg; lia|]. apply Forall_cons_iff in Hs as [H1 H2]. cbn [map concat] in Hg. rewrite ops_len_app in Hg.
        destruct (Z_lt_le_dec (t + ops_len (fst s)) (2 ^ 32)) as [H|H].
        - destruct (IH (t + ops_len (fst s)) H2 H ltac:(lia)) as (b & a & -> & Hb). exists (s :: b), a. split; [reflexivity|]. cbn [map concat]. rewrite ops_len_app. lia.
        - exists [s], l. split; [reflexivity|]. cbn [map concat]. rewrite ops_len_app. change (ops_len []) with 0. lia. }
      destruct (G secs 0 Hsz ltac:(lia) Hge) as (b & a & -> & H). exists b, a. split; [reflexivity|lia]. }
    destruct Hsp as (before & after & -> & H). exact (C104_unchecked_builds_corrupt cd patch src trgt before after [] Hcb Hpb (Ha Release) Hp ltac:(lia)).
Qed.
(** A target of 4 GiB + 16 MiB is encoded; the hypotheses hold; a 32-bit release build writes less than that and says it is done. *)
Definition cfg32 : config := mkConfig None None None Interleaved max_win_size None None.
Lemma no_codecs_bytes : codecs_bytes no_codecs.
Proof. split; intros bs dec rest _ H; discriminate. Qed.
Example C104_example : exists patch, let trgt := rep 7 (2 ^ 32 + 2 ^ 24) in
  encode Debug no_codecs cfg32 (Some []) trgt = (patch, Ok tt) /\ Forall is_byte patch /\ applies Release no_codecs patch [] trgt /\
  snd (apply_patch32 Debug no_codecs patch (Some []) (mkSink [] 0)) = Panic /\ sbuf (fst (apply_patch32 Release no_codecs patch (Some []) (mkSink [] 0))) <> trgt.
Proof.
  set (trgt := rep 7 (2 ^ 32 + 2 ^ 24)). assert (Hz : zlen trgt = 2 ^ 32 + 2 ^ 24) by (unfold trgt; rewrite zlen_rep; lia).
  assert (Hb : Forall is_byte trgt) by (unfold trgt, rep; apply Forall_forall; intros x Hx; apply repeat_spec in Hx; subst; unfold is_byte; lia). clearbody trgt.
  destruct (C33_encode_total_no_src Debug no_codecs cfg32 (Some []) trgt Hb ltac:(lia) ltac:(cbn; lia) ltac:(cbn; discriminate) I ltac:(left; reflexivity) eq_refl) as (patch & E).
  exists patch. cbv zeta.
  destruct (C104_encoded_patches Debug Release no_codecs cfg32 [] trgt patch no_codecs_bytes I I Hb ltac:(lia) ltac:(cbn; lia) E) as (_ & A & B).
  split; [exact E|]. split; [exact (encode_bytes Debug no_codecs cfg32 (Some []) trgt patch I Hb ltac:(lia) ltac:(cbn; lia) E)|]. split; [|split].
  - destruct (C31_encode_apply_roundtrip Debug Release no_codecs cfg32 (Some []) trgt patch I Hb ltac:(lia) ltac:(cbn; lia) E [] [] 0) as (p & Q). rewrite app_nil_r in Q. exists p. rewrite Q. unfold drop. now rewrite skipn_nil, app_nil_r.
  - apply A. lia.
  - intro Q. specialize (B ltac:(lia)). rewrite Q in B. lia.
Qed.
(** Such a result is not noticed: this patch (all literals) makes a 32-bit release build write a wrong file and report success. *)
Lemma ops_no_comp_keeps m h bs ops h' r : read_ops_no_comp m h bs = Ok (ops, h', r) -> h_comp h' = h_comp h.
Proof.
  unfold read_ops_no_comp. intro H. apply bind_ok in H as ([[[o cs] nadd] b] & _ & H). destruct (negb _); [discriminate|].
  destruct (h_format h); [injection H as _ <- _; reflexivity|]. apply bind_ok in H as ([o2 b2] & _ & H). injection H as _ <- _. reflexivity.
Qed.
Lemma pieces_no_copies : forall fuel l, Forall (fun o => is_out_copy o = false) (pieces fuel l).
Proof. induction fuel as [|k IH]; intro l; cbn [pieces]; [constructor|]. destruct l; constructor; [reflexivity|apply IH]. Qed.
Lemma plain_not_big m cd patch secs rest : patch_read (next_section m cd) patch secs rest -> Forall (fun s => h_comp (snd s) = 0) secs -> ~ section_too_big m cd patch.
Proof.
  intros Hp Hc (l & bs & h & r & Hs & Hh & H1 & _).
  assert (G : exists ops h' r', next_section m cd bs = Ok (ops, h', r') /\ h_comp h' = 0).
  { clear - Hp Hc Hs. revert secs Hp Hc. induction Hs as [bs|bs ops h r l r' En Em Hs IH]; intros secs Hp Hc.
    - inversion Hp; subst; inversion Hc; subst; eauto.
    - inversion Hp as [? ? ? ? En' Em'|? ? ? ? ? ? En' Em' Hp']; subst; rewrite En in En'; injection En' as ? ? ?; subst; [congruence|]. apply Forall_cons_iff in Hc as [_ Hc]. exact (IH _ Hp' Hc). }
  destruct G as (ops & h' & r' & E & E0). unfold next_section in E. rewrite Hh in E. cbn [bind] in E. replace (h_comp h =? 1) with true in E by lia.
  destruct (apply_no_sec_comp m None r (mkSink [] 0)) as [s [q| | |]]; try discriminate. apply bind_ok in E as ([[o2 h2] r2] & E & E2). injection E2 as _ <- _. apply ops_no_comp_keeps in E. lia.
Qed.
Example C104_unnoticed_example : exists patch s, let trgt := rep 7 (2 ^ 32 + 2 ^ 24) in
  encode Debug no_codecs cfg32 (Some []) trgt = (patch, Ok tt) /\ applies Release no_codecs patch [] trgt /\
  apply_patch32 Release no_codecs patch (Some []) (mkSink [] 0) = (s, Ok tt) /\ zlen (sbuf s) < zlen trgt.
Proof.
  set (trgt := rep 7 (2 ^ 32 + 2 ^ 24)). assert (Hz : zlen trgt = 2 ^ 32 + 2 ^ 24) by (unfold trgt; rewrite zlen_rep; lia).
  assert (Hb : Forall is_byte trgt) by (unfold trgt, rep; apply Forall_forall; intros x Hx; apply repeat_spec in Hx; subst; unfold is_byte; lia). clearbody trgt.
  destruct (C33_encode_total_no_src Debug no_codecs cfg32 (Some []) trgt Hb ltac:(lia) ltac:(cbn; lia) ltac:(cbn; discriminate) I ltac:(left; reflexivity) eq_refl) as (patch & E).
  destruct (C104_encoded_patches Debug Release no_codecs cfg32 [] trgt patch no_codecs_bytes I I Hb ltac:(lia) ltac:(cbn; lia) E) as (_ & _ & B). specialize (B ltac:(lia)).
  assert (Ha : applies Release no_codecs patch [] trgt).
  { destruct (C31_encode_apply_roundtrip Debug Release no_codecs cfg32 (Some []) trgt patch I Hb ltac:(lia) ltac:(cbn; lia) E [] [] 0) as (p & Q). rewrite app_nil_r in Q. exists p. rewrite Q. unfold drop. now rewrite skipn_nil, app_nil_r. }
  destruct (C87_no_matching Debug Release no_codecs cfg32 (Some []) trgt patch I Hb ltac:(lia) ltac:(cbn; lia) eq_refl eq_refl E) as (secs & Hr & Hops).
  destruct (C34_encoder_respects_limits Debug Release no_codecs cfg32 (Some []) trgt patch I Hb ltac:(lia) ltac:(cbn; lia) E) as (secs2 & Hr2 & Hall & _).
  assert (Hpb : Forall is_byte patch) by exact (encode_bytes Debug no_codecs cfg32 (Some []) trgt patch I Hb ltac:(lia) ltac:(cbn; lia) E).
  assert (S : snd (apply_patch32 Release no_codecs patch (Some []) (mkSink [] 0)) = Ok tt).
  { apply (C104_unnoticed no_codecs patch [] trgt (concat (map fst secs)) no_codecs_bytes Hpb Ha).
    - exists secs, []. split; [exact Hr|reflexivity].
    - rewrite Hops. destruct trgt as [|x [|y t]]; [constructor|constructor; [reflexivity|constructor]|apply pieces_no_copies].
    - apply (plain_not_big _ _ _ _ _ Hr2). eapply Forall_impl; [|exact Hall]. cbn beta. intros s (_ & _ & _ & _ & _ & ->). reflexivity. }
  destruct (apply_patch32 Release no_codecs patch (Some []) (mkSink [] 0)) as [s r] eqn:Eap. cbn [fst snd] in *. subst r. exists patch, s. cbv zeta. split; [exact E|]. split; [exact Ha|]. split; [exact Eap|exact B].
Qed.
Print Assumptions C104_same_below_4GiB.
Print Assumptions C104_checked_builds_stop.
Print Assumptions C104_unchecked_builds_corrupt.
Print Assumptions C104_unnoticed.
Print Assumptions C104_encoded_patches.
