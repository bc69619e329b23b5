(** Property C99: which patches transcoding leaves alone, and the size of what it writes. *)
From Verif Require Import Base Spec SpecEnc MCommon MWriter MReader MDecoder MOpMaker MTrgtMatcher MSrcMatcher MEncInner MEncode MMerger MTranscoder SpecApi SpecMerge
  PBase PCommon PStream PSection PWriter PDecoder PPatch POpMaker PEncInner PEncode PMerge PMerge2 PMerge3 PMerge4 PTrans TEncode TMerge TTrans TPipe TTrunc TOff TSize TBig.
Ltac Zify.zify_post_hook ::= idtac.
Arguments Z.add : simpl never.
Arguments Z.sub : simpl never.
Arguments Z.mul : simpl never.
Arguments Z.pow : simpl never.
Arguments Z.div : simpl never.

(** Nothing to join: a literal has two bytes or more and is followed by another literal only if it is full; a run is not empty and is followed by a run of the
    same byte only if it is full. *)
Definition alone (o : op) : Prop := match o with Add bs => 2 <= zlen bs | Run _ n => 1 <= n | Copy _ _ _ => True end.
Definition apart (o p : op) : Prop :=
  match o, p with Add a, Add _ => zlen a = 65535 | Run b n, Run c _ => b <> c \/ n = 62 | _, _ => True end.
Fixpoint settled (ops : list op) : Prop :=
  match ops with [] => True | o :: r => alone o /\ match r with p :: _ => apart o p | [] => True end /\ settled r end.

Lemma t_add_one l : 2 <= zlen l <= 65535 -> t_add_ops l = Ok [Add l].
Proof.
  intros Hl. destruct l as [|x [|y l]]; [unfold zlen in Hl; cbn in Hl; lia..|]. set (L := x :: y :: l) in *.
  assert (E : t_add_ops L = if zlen L =? MAX_INST_SIZE then Ok [Add L] else add_chunks (length L) L) by reflexivity. rewrite E. unfold MAX_INST_SIZE.
  destruct (zlen L =? 65535) eqn:E1; [reflexivity|]. unfold L at 1. cbn [length add_chunks]. fold L. replace (zlen L =? 0) with false by lia. unfold MAX_INST_SIZE. replace (Z.min (zlen L) 65535) with (zlen L) by lia.
  rewrite (drop_all (zlen L) L), (take_all (zlen L) L) by lia. reflexivity.
Qed.
Lemma t_run_one b n p : 1 <= n <= 62 -> t_run_ops b n p = Ok [Run b n].
Proof.
  intros Hn. unfold t_run_ops, make_run_ops, RUN_LIMIT. replace (n <? 372) with true by lia. cbn [run_chunks]. unfold MAX_RUN_LEN. replace (n <=? 0) with false by lia.
  replace (Z.min 62 n) with n by lia. replace (n - n <=? 0) with true by lia. cbn [bind]. rewrite to_u8_id by lia. reflexivity.
Qed.
Lemma t_run_two b n p : 1 <= n <= 62 -> t_run_ops b (62 + n) p = Ok [Run b 62; Run b n].
Proof.
  intros Hn. unfold t_run_ops, make_run_ops, RUN_LIMIT. replace (62 + n <? 372) with true by lia. cbn [run_chunks]. unfold MAX_RUN_LEN. replace (62 + n <=? 0) with false by lia.
  replace (Z.min 62 (62 + n)) with 62 by lia. replace (62 + n - 62) with n by lia. replace (n <=? 0) with false by lia. replace (Z.min 62 n) with n by lia. replace (n - n <=? 0) with true by lia. cbn [bind].
  rewrite (to_u8_id n), (to_u8_id 62) by lia. reflexivity.
Qed.
Lemma settled_adds : forall k ops p, (length ops <= k)%nat -> settled ops -> join_adds (map to_inner (number p ops)) = map to_inner (number p ops).
Proof.
  induction k as [|k IH]; intros ops p Hk Hs; [destruct ops; [reflexivity|cbn in Hk; lia]|].
  destruct ops as [|o ops]; [reflexivity|]. destruct Hs as (H1 & H2 & H3). cbn [length] in Hk.
  assert (G : forall x, to_inner x = to_inner x -> forall q, join_adds (map to_inner (number q ops)) = map to_inner (number q ops)) by (intros _ _ q; apply IH; [lia|exact H3]). specialize (G (0, o) eq_refl).
  cbn [number map]. destruct o as [a|b n|s a n]; cbn [to_inner snd fst]; try (cbn [join_adds]; rewrite G; reflexivity).
  destruct ops as [|o2 ops]; [reflexivity|]. cbn [number map] in *. destruct o2 as [b|b n|s c n]; cbn [to_inner snd fst] in *; try (cbn [join_adds] in *; rewrite G; reflexivity).
  cbn [join_adds]. cbn [apart] in H2. unfold MAX_INST_SIZE. rewrite H2. change (65535 <? 65535) with false. rewrite andb_false_r. destruct H3 as (_ & _ & H3). cbn [length] in Hk. rewrite IH by (lia || exact H3). reflexivity.
Qed.
Lemma settled_convert : forall k ops p, (length ops <= k)%nat -> settled ops -> Forall op_ok ops -> convert (join_runs (map to_inner (number p ops))) = Ok ops.
Proof.
  induction k as [|k IH]; intros ops p Hk Hs Hok; [destruct ops; [reflexivity|cbn in Hk; lia]|].
  destruct ops as [|o ops]; [reflexivity|]. destruct Hs as (H1 & H2 & H3). cbn [length] in Hk. inversion Hok as [|? ? Ho Hr]; subst.
  assert (G : forall q, convert (join_runs (map to_inner (number q ops))) = Ok ops) by (intros q; apply IH; [lia|exact H3|exact Hr]).
  cbn [number map]. destruct o as [a|b n|s a n]; cbn [to_inner snd fst].
  - cbn [join_runs convert]. destruct Ho as [_ Ho]. cbn [op_legal alone] in *. replace (zlen a =? 0) with false by lia. rewrite t_add_one by lia. rewrite G. reflexivity.
  - destruct Ho as [_ Ho]. cbn [op_legal alone] in *. destruct ops as [|o2 ops].
    + cbn [number map join_runs convert]. replace (n >? 0) with true by lia. rewrite t_run_one by lia. reflexivity.
    + cbn [number map] in *. destruct o2 as [c|c k2|s c k2]; cbn [to_inner snd fst] in *;
        try (cbn [join_runs convert] in *; replace (n >? 0) with true by lia; rewrite t_run_one by lia; rewrite G; reflexivity).
      cbn [join_runs]. inversion Hr as [|? ? Ho2 Hr2]; subst. destruct Ho2 as [_ Ho2]. destruct H3 as (A2 & _ & H3). cbn [op_legal alone apart length] in *.
      assert (G2 : forall q, convert (join_runs (map to_inner (number q ops))) = Ok ops) by (intros q; apply IH; [lia|exact H3|exact Hr2]).
      destruct (Z.eqb_spec b c) as [->|Hbc].
      * destruct H2 as [H2| ->]; [congruence|]. cbn [convert]. replace (62 + k2 >? 0) with true by lia. rewrite t_run_two by lia. cbn [bind]. change (0 >? 0) with false. cbn [bind]. rewrite G2. reflexivity.
      * cbn [convert]. replace (n >? 0) with true by lia. rewrite t_run_one by lia. replace (k2 >? 0) with true by lia. rewrite t_run_one by lia. rewrite G2. reflexivity.
  - cbn [join_runs convert bind]. rewrite G. reflexivity.
Qed.
Lemma settled_optimize m ops : ops <> [] -> zlen ops < 2 ^ 63 -> Forall op_ok ops -> settled ops -> optimize m (map to_inner (number 0 ops)) = Ok ops.
Proof.
  intros Hne Hl Hok Hs. assert (Hz : zlen (map to_inner (number 0 ops)) = zlen ops) by (rewrite zlen_map, <- (zlen_map snd), number_snd; reflexivity).
  assert (Hz1 : 1 <= zlen ops) by (destruct ops; [contradiction|rewrite zlen_cons; pose proof (zlen_nonneg ops); lia]).
  unfold optimize. rewrite (settled_adds (length ops) ops 0 (le_n _) Hs). unfold join_bound. rewrite Hz, usub_ok by lia. cbn [bind]. replace (zlen ops <? 1) with false by lia. rewrite andb_false_r. cbn [bind].
  exact (settled_convert (length ops) ops 0 (le_n _) Hs Hok).
Qed.
Lemma settled_transcode m cd patch ops f sc seg : trans_ops m cd patch ops -> settled ops ->
  transcode m cd patch f sc seg = write_all_sections (section_writer m cd sc) f (make_sections ops seg).
Proof.
  intros Ht Hs. destruct (trans_ops_spec m cd patch ops f sc seg Ht) as (ops' & E & _ & _ & _ & _ & _ & -> & _). destruct Ht as (_ & Hok & Hne & Hl & _).
  rewrite (settled_optimize m ops Hne Hl Hok Hs) in E. injection E as <-. reflexivity.
Qed.
(** C99. A patch with nothing to join keeps its operations, whatever it is transcoded to. *)
Theorem C99_settled_unchanged : forall m m' cd patch ops f sc seg b, codecs_bytes cd -> codecs_shrink cd -> trans_in m cd patch ops -> settled ops ->
  comp_lossless cd sc (atoms ops) -> transcode m cd patch f sc seg = (b, Ok tt) -> reads_as m' cd b ops.
Proof.
  intros m m' cd patch ops f sc seg b Hc1 Hc2 Hti Hs Hcl H. destruct (trans_good m m' cd patch ops f sc seg b Hc1 Hc2 Hti Hcl H) as (ops' & E & _ & _ & _ & _ & _ & Hr).
  pose proof (trans_in_ops m cd patch ops Hc1 Hc2 Hti) as (_ & Hok & Hne & Hl & _). rewrite (settled_optimize m ops Hne Hl Hok Hs) in E. injection E as <-.
  destruct (Hr []) as (secs & Hp & Hcat & _). rewrite app_nil_r in Hp. exists secs, []. split; [exact Hp|congruence].
Qed.
(** C99. For such a patch a detour over another format, compression or section size makes no difference at all. *)
Theorem C99_detour : forall m cd patch ops f1 sc1 seg1 b f sc seg, codecs_bytes cd -> codecs_shrink cd -> trans_in m cd patch ops -> settled ops ->
  comp_lossless cd sc1 (atoms ops) -> transcode m cd patch f1 sc1 seg1 = (b, Ok tt) -> Forall is_byte b ->
  transcode m cd b f sc seg = transcode m cd patch f sc seg.
Proof.
  intros m cd patch ops f1 sc1 seg1 b f sc seg Hc1 Hc2 Hti Hs Hcl H Hb.
  pose proof (C99_settled_unchanged m m cd patch ops f1 sc1 seg1 b Hc1 Hc2 Hti Hs Hcl H) as HR.
  assert (Hti2 : trans_in m cd b ops) by (destruct Hti as (_ & _ & T); split; [exact Hb|split; [exact HR|exact T]]).
  rewrite (settled_transcode m cd patch ops f sc seg (trans_in_ops m cd patch ops Hc1 Hc2 Hti) Hs). exact (settled_transcode m cd b ops f sc seg (trans_in_ops m cd b ops Hc1 Hc2 Hti2) Hs).
Qed.
Lemma write_sections_all m wr f src trgt : forall secs cur b, write_sections m wr f src trgt cur secs = (b, Ok tt) -> write_all_sections wr f secs = (b, Ok tt).
Proof.
  induction secs as [|[ops h] secs IH]; intros cur b H; [exact H|]. cbn [write_sections] in H. cbv zeta in H. apply wbind_ok in H as (o1 & [] & o2 & Hc & H & ->). apply wlift_inv in Hc as [-> _].
  apply wbind_ok in H as (o3 & [] & o4 & Hw & H & ->). cbn [write_all_sections app]. rewrite Hw. cbn [wbind]. rewrite (IH _ _ H). reflexivity.
Qed.
(** C99. A patch that encode or the merger wrote and that has nothing to join comes back byte for byte when it is transcoded to its own settings (and so, by
    C99_detour, after a detour over any others). *)
Theorem C99_own_settings : forall m cd,
  (forall c dict trgt patch ops, codecs_bytes cd -> codecs_shrink cd -> comp_lossless cd (cf_comp c) trgt -> Forall is_byte trgt -> zlen trgt < 2 ^ 63 -> zlen (source_of dict) < 2 ^ 63 ->
     encode m cd c dict trgt = (patch, Ok tt) -> trans_in m cd patch ops -> settled ops ->
     transcode m cd patch (cf_format c) (cf_comp c) (cf_segment c) = (patch, Ok tt)) /\
  (forall newest older src out r seg f sc b, codecs_bytes cd -> codecs_shrink cd -> chain m cd src (newest :: older) out -> zlen src < 2 ^ 63 -> new_ok m cd newest ->
     merge_from m cd newest older = Ok r -> comp_lossless cd sc out -> summary_write m cd (summary_of r) (Some seg) (Some f) sc = (b, Ok tt) ->
     Forall is_byte b -> out <> [] -> settled (summary_of r) -> transcode m cd b f sc seg = (b, Ok tt)).
Proof.
  intros m cd. split.
  - intros c dict trgt patch ops Hc1 Hc2 Hcl Hb Ht Hs H Hti Hst.
    destruct (encode_good m m cd c dict trgt patch Hcl Hb Ht Hs H) as (cs & ops' & Ei & Et & _ & _ & Hcat & _ & _ & Hsg).
    destruct (secs_good_read _ _ _ Hsg []) as (outs & Hr & Hall). rewrite app_nil_r in Hr.
    assert (HR : reads_as m cd patch ops') by (exists outs, []; split; [exact Hr|]; rewrite (Forall2_fst _ _ _ (fun _ _ X => proj1 X) Hall), sec_with_ops; symmetry; exact Hcat).
    pose proof (reads_as_det _ _ _ _ _ (proj1 (proj2 Hti)) HR) as <-.
    rewrite (settled_transcode m cd patch ops _ _ _ (trans_in_ops m cd patch ops Hc1 Hc2 Hti) Hst). unfold encode in H. cbv zeta in H.
    destruct (encode_with_inv _ _ _ _ _ _ _ _ H) as (cs' & ops2 & Ei' & Et' & Hw). rewrite Ei in Ei'. injection Ei' as <-. rewrite Et in Et'. injection Et' as <-.
    exact (write_sections_all _ _ _ _ _ _ _ _ Hw).
  - intros newest older src out r seg f sc b Hc1 Hc2 Hch Hs Hn E Hcl Hw Hb Hne Hst.
    destruct (C49_merge_chain _ _ _ _ _ _ Hch Hs Hn) as (r' & E' & Hg & Hr & _). rewrite E in E'. injection E' as <-. pose proof (chain_bound _ _ _ _ _ Hch Hs) as Ho.
    pose proof (summary_write_reads m m cd _ src out (Some seg) (Some f) sc b Hcl Hg Hr Ho Hs Hw) as HR.
    pose proof (run_ops_len _ _ _ _ (ops_ok_nonneg _ (good_ok _ Hg)) Hr) as L. rewrite (@zlen_nil Z) in L. cbn [app] in L. pose proof (good_zlen _ Hg) as Hz.
    assert (Hn2 : summary_of r <> []) by (intro E0; rewrite E0 in L; change (ops_len []) with 0 in L; apply Hne; apply zlen_0; lia).
    assert (Hti : trans_in m cd b (summary_of r)).
    { split; [exact Hb|]. split; [exact HR|]. split; [exact Hn2|]. split; [lia|]. split.
      - intros s a n Hin. assert (HA : addrs_lt (2 ^ 63) (summary_of r)) by (apply (run_ops_addrs src (2 ^ 63) ltac:(lia) (summary_of r) [] out Hr Hg); lia). unfold addrs_lt in HA. rewrite Forall_forall in HA. exact (proj2 (HA _ Hin)).
      - right. eapply Forall_impl; [|exact Hg]. intros x [_ Hx]. exact Hx. }
    rewrite (settled_transcode m cd b _ _ _ _ (trans_in_ops m cd b _ Hc1 Hc2 Hti) Hst). unfold summary_write in Hw. cbv zeta in Hw. rewrite clamp_idem in Hw. exact Hw.
Qed.

(** ** Size *)
Definition iadds (l : list iop) : Z := fold_right (fun o s => match o with IAdd bs => zlen bs | _ => 0 end + s) 0 l.
Lemma iadds_cons o l : iadds (o :: l) = match o with IAdd bs => zlen bs | _ => 0 end + iadds l. Proof. reflexivity. Qed.
Lemma iadds_inner : forall ops p, iadds (map to_inner (number p ops)) = adds_len ops.
Proof. induction ops as [|o ops IH]; intro p; [reflexivity|]. cbn [number map]. rewrite iadds_cons, IH, adds_len_cons. destruct o; reflexivity. Qed.
Lemma iadds_adds : forall k l, (length l <= k)%nat -> iadds (join_adds l) = iadds l.
Proof.
  induction k as [|k IH]; intros l Hk; [destruct l; [reflexivity|cbn in Hk; lia]|]. destruct l as [|x l]; [reflexivity|]. cbn [length] in Hk.
  assert (G : iadds (join_adds l) = iadds l) by (apply IH; lia).
  destruct x as [a|s c n|b n p]; try (cbn [join_adds]; rewrite !iadds_cons, G; reflexivity). destruct l as [|y l]; [reflexivity|].
  destruct y as [b|s c n|b n p]; try (cbn [join_adds] in *; rewrite (iadds_cons (IAdd a)), G, !iadds_cons; lia).
  cbn [join_adds]. cbn [length] in Hk. assert (G2 : iadds (join_adds l) = iadds l) by (apply IH; lia).
  destruct (negb (zlen b =? 0) && (zlen a <? MAX_INST_SIZE)); rewrite !iadds_cons, G2; [rewrite zlen_app, (@zlen_nil Z)|]; lia.
Qed.
Lemma iadds_runs : forall k l, (length l <= k)%nat -> iadds (join_runs l) = iadds l.
Proof.
  induction k as [|k IH]; intros l Hk; [destruct l; [reflexivity|cbn in Hk; lia]|]. destruct l as [|x l]; [reflexivity|]. cbn [length] in Hk.
  assert (G : iadds (join_runs l) = iadds l) by (apply IH; lia).
  destruct x as [a|s c n|b n p]; try (cbn [join_runs]; rewrite !iadds_cons, G; reflexivity). destruct l as [|y l]; [reflexivity|].
  destruct y as [a|s c n2|b2 n2 p2]; try (cbn [join_runs] in *; rewrite (iadds_cons (IRun b n p)), G, !iadds_cons; lia).
  cbn [join_runs]. cbn [length] in Hk. assert (G2 : iadds (join_runs l) = iadds l) by (apply IH; lia). destruct (b =? b2); rewrite !iadds_cons, G2; lia.
Qed.
Lemma add_chunks_adds : forall k bs ops, add_chunks k bs = Ok ops -> adds_len ops <= zlen bs.
Proof.
  induction k as [|k IH]; intros bs ops H; cbn [add_chunks] in H; (destruct (zlen bs =? 0); [injection H as <-; apply zlen_nonneg|]); [discriminate H|].
  apply bind_ok in H as (r & E & H). injection H as <-. apply IH in E. rewrite adds_len_cons. cbn [add_len]. rewrite <- (take_drop (Z.min (zlen bs) MAX_INST_SIZE) bs) at 3. rewrite zlen_app. lia.
Qed.
Lemma t_add_adds bs ops : t_add_ops bs = Ok ops -> adds_len ops <= zlen bs.
Proof.
  intro H. pose proof (zlen_nonneg bs). destruct bs as [|x [|y l]]; [injection H as <-; cbn; lia|injection H as <-; cbn; lia|]. set (L := x :: y :: l) in *.
  assert (E : t_add_ops L = if zlen L =? MAX_INST_SIZE then Ok [Add L] else add_chunks (length L) L) by reflexivity. rewrite E in H. destruct (zlen L =? MAX_INST_SIZE); [injection H as <-; rewrite adds_len_cons; cbn; lia|].
  exact (add_chunks_adds _ _ _ H).
Qed.
Lemma run_chunks_adds b : forall k n ops, run_chunks k b n = Ok ops -> adds_len ops = 0.
Proof.
  induction k as [|k IH]; intros n ops H; cbn [run_chunks] in H; (destruct (n <=? 0); [injection H as <-; reflexivity|]); [discriminate H|]. apply bind_ok in H as (r & E & H). injection H as <-. rewrite adds_len_cons, (IH _ _ E). reflexivity.
Qed.
Lemma run_copies_adds a : forall k mc n ops, run_copies k a mc n = Ok ops -> adds_len ops = 0.
Proof.
  induction k as [|k IH]; intros mc n ops H; cbn [run_copies] in H; (destruct (n <=? 0); [injection H as <-; reflexivity|]); [discriminate H|]. apply bind_ok in H as (r & E & H). injection H as <-. rewrite adds_len_cons, (IH _ _ _ E). reflexivity.
Qed.
Lemma t_run_adds b n p ops : t_run_ops b n p = Ok ops -> adds_len ops = 0.
Proof.
  unfold t_run_ops, make_run_ops. destruct (n <? RUN_LIMIT); [apply run_chunks_adds|]. intro H. apply bind_ok in H as (r & E & H). injection H as <-. apply run_copies_adds in E.
  change (rep (Run b MAX_RUN_LEN) 3 ++ r) with (Run b MAX_RUN_LEN :: Run b MAX_RUN_LEN :: Run b MAX_RUN_LEN :: r). rewrite !adds_len_cons, E. reflexivity.
Qed.
Lemma convert_adds : forall l ops, convert l = Ok ops -> adds_len ops <= iadds l.
Proof.
  induction l as [|x l IH]; intros ops H; cbn [convert] in H; [injection H as <-; cbn; lia|]. apply bind_ok in H as (these & E1 & H). apply bind_ok in H as (r & E2 & H). injection H as <-. specialize (IH _ E2). rewrite adds_len_app, iadds_cons.
  destruct x as [bs|s a n|b n p].
  - destruct (zlen bs =? 0); [injection E1 as <-; pose proof (zlen_nonneg bs); change (adds_len []) with 0; lia|]. apply t_add_adds in E1. lia.
  - injection E1 as <-. change (adds_len [Copy s a n]) with 0. lia.
  - destruct (n >? 0); [apply t_run_adds in E1; lia|injection E1 as <-; change (adds_len []) with 0; lia].
Qed.
(** C99. The size of what transcoding writes without secondary compression: by the format that of its operations and sections, so at most the literal bytes of the
    input, 13 bytes for each of its operations, and 13 for each section, of which there are at most 1 + 2 |output| / section size. *)
Theorem C99_transcoded_size : forall m m' cd patch ops f seg b, codecs_bytes cd -> codecs_shrink cd -> trans_in m cd patch ops -> Forall (fun o => 1 <= op_len o) ops ->
  transcode m cd patch f None seg = (b, Ok tt) ->
  exists secs, patch_read (next_section m' cd) b secs [] /\ zlen b = sections_cost f (map fst secs) /\
    zlen b <= 13 * zlen secs + 13 * zlen ops + adds_len ops /\ 1 <= zlen secs <= 1 + 2 * ops_len ops / clamp_section seg.
Proof.
  intros m m' cd patch ops f seg b Hc1 Hc2 Hti Hpos H. pose proof (trans_in_ops m cd patch ops Hc1 Hc2 Hti) as Ht.
  destruct (trans_ops_spec m cd patch ops f None seg Ht) as (ops' & Eo & A & O & N & Z0 & Hcp & Et & Hcat & Hfl & Hin). rewrite Et in H.
  assert (Hfrom : forall x, is_copy x = true -> In x ops' -> In x ops).
  { intros x Hx Hi. assert (In x (filter is_copy ops)) as G by (rewrite <- Hcp; apply filter_In; auto). now apply filter_In in G. }
  assert (Hg : Forall op_good ops').
  { rewrite Forall_forall in *. intros x Hx. split; [exact (O x Hx)|]. destruct (N x Hx) as [Hy|Hy]; [|exact Hy]. apply Hpos. exact (Hfrom x Hy Hx). }
  assert (Hnear : Forall near ops').
  { destruct Ht as (_ & _ & _ & _ & Hadr & _). rewrite Forall_forall. intros x Hx. destruct x as [| |s a n]; try exact I. cbn [near]. apply (Hadr s a n). exact (Hfrom (Copy s a n) eq_refl Hx). }
  assert (Hadds : adds_len ops' <= adds_len ops).
  { unfold optimize in Eo. apply bind_ok in Eo as (u & _ & Eo). cbv zeta in Eo. apply bind_ok in Eo as (u2 & _ & Eo). apply convert_adds in Eo. rewrite (iadds_runs _ _ (le_n _)), (iadds_adds _ _ (le_n _)), iadds_inner in Eo. exact Eo. }
  assert (Hlen : ops_len ops' = ops_len ops).
  { assert (G : forall l, Forall op_ok l -> ops_len l = fold_right (fun a s => match a with inl _ => 1 | inr (_, _, n) => n end + s) 0 (atoms l)).
    { assert (GL : forall bs r, fold_right (fun (a : Z + csrc * Z * Z) s => match a with inl _ => 1 | inr (_, _, n) => n end + s) 0 (map inl bs ++ r) = zlen bs + fold_right (fun a s => match a with inl _ => 1 | inr (_, _, n) => n end + s) 0 r).
      { induction bs as [|x bs IH]; intro r; [cbn [map app]; rewrite (@zlen_nil Z); lia|]. cbn [map app fold_right]. rewrite IH, zlen_cons. lia. }
      unfold atoms. induction l as [|x l IH]; intro Hl; [reflexivity|]. inversion Hl as [|? ? Hx Hr]; subst. rewrite ops_len_cons, (IH Hr). cbn [flat_map]. destruct x as [bs|c n|s a n]; cbn [op_len].
      - rewrite GL. reflexivity.
      - rewrite GL, zlen_rep. destruct Hx as [_ Hx]. cbn [op_legal] in Hx. lia.
      - reflexivity. }
    rewrite (G ops' O), (G ops), A; [reflexivity|]. apply Ht. }
  assert (HF : Forall (fun s => sec_in f max_win_size (fst s, set_format (snd s) f) /\ Forall near (fst s)) (make_sections ops' seg)).
  { rewrite <- Hcat in Hnear. apply Forall_concat_inv in Hnear. rewrite Forall_map in Hnear. rewrite Forall_forall in *. intros s Hx. split; [apply (Hin s Hx)|exact (Hnear s Hx)]. }
  assert (Hz : zlen b = sections_cost f (map fst (make_sections ops' seg))) by (exact (write_all_cost m f _ b HF H)).
  destruct (trans_good m m' cd patch ops f None seg b Hc1 Hc2 Hti I ltac:(rewrite Et; exact H)) as (ops2 & Eo2 & _). rewrite Eo in Eo2. injection Eo2 as <-.
  rewrite (write_all_is _ _ _ [] [] 0) in H.
  assert (Hsg : secs_good (next_section m' cd) (map (sec_with f (comp_value None)) (make_sections ops' seg)) b).
  { eapply write_sections_good; [| | |exact Hfl|exact H].
    - intros ops1 h1 b1 He Hi Hw. exact (section_writer_good m m' cd None f ops1 h1 b1 (comp_lossless_imp cd None (atoms ops) ops1 He I) Hi Hw).
    - eapply Forall_impl; [|exact Hin]. intros s (_ & _ & Hx) E. rewrite <- A, (Hx E). reflexivity.
    - eapply Forall_impl; [|exact Hin]. intros s Hs. apply Hs. }
  destruct (secs_good_read _ _ _ Hsg []) as (outs & Hrd & Hall). rewrite app_nil_r in Hrd.
  assert (Es : map fst outs = map fst (make_sections ops' seg)) by (rewrite (Forall2_fst _ _ _ (fun _ _ X => proj1 X) Hall); apply sec_with_ops).
  exists outs. split; [exact Hrd|]. rewrite Es. split; [exact Hz|].
  assert (HG : Forall (fun ops => Forall op_good ops /\ Forall near ops /\ ops_len ops <= max_win_size) (map fst (make_sections ops' seg))).
  { rewrite Forall_map. pose proof Hg as Hg'. rewrite <- Hcat in Hg'. apply Forall_concat_inv in Hg'. rewrite Forall_map in Hg'. rewrite Forall_forall in *. intros s Hx. split; [exact (Hg' s Hx)|].
    destruct (HF s Hx) as [_ Hnr]. split; [exact Hnr|]. destruct (Hin s Hx) as (_ & G6 & _). eapply Z.le_trans; [exact G6|]. unfold clamp_section, max_inst_size, max_win_size. lia. }
  pose proof (sections_cost_range f _ HG) as B. rewrite <- Hz, Hcat in B. assert (Hl2 : zlen outs = zlen (make_sections ops' seg)) by (unfold zlen; rewrite <- (map_length fst outs), Es, map_length; reflexivity).
  rewrite zlen_map in B. rewrite <- Hl2 in B. split; [lia|]. rewrite Hl2, <- Hlen. exact (C90_section_count ops' seg O).
Qed.

(** C99. Refuted: that transcoding to the same settings twice is the same as once, and that it never makes a patch larger. *)
Definition three_adds : list Z := [0; 3; 6; 130; 1; 2; 130; 3; 4; 130; 5; 6].
Definition two_adds : list Z := [0; 2; 80; 168] ++ rep 7 40 ++ [168] ++ rep 8 40.
Theorem C99_refuted : forall m cd,
  (exists p b, trans_in m cd p [Add [1; 2]; Add [3; 4]; Add [5; 6]] /\ transcode m cd p Interleaved None 65535 = (b, Ok tt) /\ transcode m cd b Interleaved None 65535 <> (b, Ok tt)) /\
  (exists p b, trans_in m cd p [Add (rep 7 40); Add (rep 8 40)] /\ transcode m cd p Interleaved None 65535 = (b, Ok tt) /\ zlen b > zlen p).
Proof.
  intros m cd. split.
  - exists three_adds. eexists. split; [|split; [destruct m; vm_compute; reflexivity|destruct m; vm_compute; discriminate]].
    split; [apply byteb_ok; reflexivity|]. split; [do 2 eexists; split; [apply pr_last; [destruct m; vm_compute; reflexivity|reflexivity]|reflexivity]|].
    split; [discriminate|]. split; [reflexivity|]. split; [|left; reflexivity]. intros s x n Hin. cbn in Hin. intuition discriminate.
  - exists two_adds. eexists. split; [|split; [destruct m; vm_compute; reflexivity|vm_compute; reflexivity]].
    split; [apply byteb_ok; reflexivity|]. split; [do 2 eexists; split; [apply pr_last; [destruct m; vm_compute; reflexivity|reflexivity]|reflexivity]|].
    split; [discriminate|]. split; [reflexivity|]. split; [|left; reflexivity]. intros s x n Hin. cbn in Hin. intuition discriminate.
Qed.
(** The newest patch of C49_example: what encode made has nothing to join, and goes through zstd-compressed segregated sections and back unchanged. *)
Example C99_example : forall m, encode m toy mcfg (Some v2) v3 = (p23, Ok tt) /\ codecs_bytes toy /\ codecs_shrink toy /\
  exists ops, trans_in m toy p23 ops /\ settled ops /\ Forall (fun o => 1 <= op_len o) ops /\
    exists b, transcode m toy p23 Segregated (Some (ZstdComp 3)) 65535 = (b, Ok tt) /\ b <> p23 /\ Forall is_byte b /\ transcode m toy b (cf_format mcfg) (cf_comp mcfg) (cf_segment mcfg) = (p23, Ok tt).
Proof.
  intro m. split; [destruct m; vm_compute; reflexivity|]. split; [apply C54_example|]. split; [apply C54_example|]. eexists. split.
  - split; [apply byteb_ok; vm_compute; reflexivity|]. split; [do 2 eexists; split; [apply pr_last; [destruct m; vm_compute; reflexivity|reflexivity]|reflexivity]|].
    cbn [map concat fst app]. split; [discriminate|]. split; [vm_compute; reflexivity|]. split; [|left; vm_compute; reflexivity]. intros s a n Hin. cbn [In] in Hin.
    repeat (destruct Hin as [Hin|Hin]; [try discriminate Hin; injection Hin as <- <- <-; vm_compute; reflexivity|]). destruct Hin.
  - cbn [map concat fst app]. split; [repeat split; try exact I; vm_compute; discriminate|]. split; [repeat (constructor; [vm_compute; discriminate|]); constructor|].
    eexists. split; [destruct m; vm_compute; reflexivity|]. split; [vm_compute; discriminate|]. split; [apply byteb_ok; vm_compute; reflexivity|]. destruct m; vm_compute; reflexivity.
Qed.

Print Assumptions C99_settled_unchanged.
Print Assumptions C99_detour.
Print Assumptions C99_own_settings.
Print Assumptions C99_transcoded_size.
Print Assumptions C99_refuted.
