(** Proofs about smdiff-merger, continued: the API on patches. *)
From Verif Require Import Base Spec MCommon MWriter MReader MDecoder MEncode MMerger SpecApi SpecMerge PBase PStream PSection PWriter PDecoder PPatch POpMaker PEncode PMerge PMerge2.
Ltac Zify.zify_post_hook ::= idtac.
Arguments Z.add : simpl never.
Arguments Z.sub : simpl never.
Arguments Z.mul : simpl never.
Arguments Z.pow : simpl never.

(** ** Extraction *)
Lemma extract_ops_spec : forall ops pos s, Forall op_ok ops -> extract_ops ops pos s = (number pos ops, pos + ops_len ops, fold_left stats_op ops s).
Proof.
  induction ops as [|o ops IH]; intros pos s H; cbn [extract_ops number fold_left].
  - cbn. now rewrite Z.add_0_r.
  - inversion H as [|? ? H1 H2]; subst. destruct (oal_op_ok o H1) as [E _]. rewrite E. rewrite IH by exact H2. rewrite ops_len_cons. now rewrite Z.add_assoc.
Qed.
Lemma extract_loop_spec m cd : forall bs secs r, patch_read (next_section m cd) bs secs r -> forall fuel pos s, (length secs <= fuel)%nat ->
  Forall op_ok (concat (map fst secs)) ->
  extract_loop fuel m cd bs pos s = Ok (number pos (concat (map fst secs)), fold_left stats_op (concat (map fst secs)) s).
Proof.
  intros bs secs r H. induction H as [bs ops h r E Hm|bs ops h r secs r' E Hm Hp IH]; intros fuel pos s Hf Hok.
  - destruct fuel as [|k]; [cbn in Hf; lia|]. cbn [extract_loop]. rewrite E. cbn [bind]. cbn [map fst concat] in *. rewrite app_nil_r in *.
    rewrite extract_ops_spec by exact Hok. now rewrite Hm.
  - destruct fuel as [|k]; [cbn in Hf; lia|]. cbn [extract_loop]. rewrite E. cbn [bind]. cbn [map fst concat] in *. apply Forall_app in Hok as [H1 H2].
    rewrite extract_ops_spec by exact H1. rewrite Hm. rewrite IH by (try exact H2; cbn in Hf; lia). cbn [bind]. now rewrite number_app, fold_left_app.
Qed.
Lemma patch_read_det next bs s1 r1 : patch_read next bs s1 r1 -> forall s2 r2, patch_read next bs s2 r2 -> s1 = s2 /\ r1 = r2.
Proof.
  intro H. induction H as [bs ops h r E Hm|bs ops h r secs r' E Hm Hp IH]; intros s2 r2 H2; inversion H2; subst; try congruence.
  - rewrite E in H. injection H as -> -> ->. auto.
  - rewrite E in H. injection H as -> -> ->. destruct (IH _ _ H1) as [-> ->]. auto.
Qed.
Lemma apply_loop_reads next : forall fuel d bs s pos s' r, apply_loop next fuel d bs s pos = (s', Ok r) ->
  exists secs, patch_read next bs secs r /\ (length secs <= fuel)%nat.
Proof.
  induction fuel as [|k IH]; intros d bs s pos s' r H; cbn [apply_loop] in H; [discriminate|].
  destruct (next bs) as [[[ops h] rest]| | |] eqn:E; try discriminate. destruct (apply_ops d ops s pos) as [[s1 p1] [u| | |]]; try discriminate.
  destruct (h_more h) eqn:Hm.
  - destruct (IH _ _ _ _ _ _ H) as (secs & Hp & Hl). exists ((ops, h) :: secs). split; [econstructor; eassumption|]. cbn. lia.
  - injection H as <- <-. exists [(ops, h)]. split; [econstructor; eassumption|]. cbn. lia.
Qed.
Lemma apply_loop_runs next d : forall bs secs r, patch_read next bs secs r -> forall fuel p out s' r', Forall op_ok (concat (map fst secs)) ->
  apply_loop next fuel (Some d) bs (mkSink out p) (zlen out) = (s', Ok r') -> run_ops d out (concat (map fst secs)) = Some (sbuf s').
Proof.
  intros bs secs r H. induction H as [bs ops h r E Hm|bs ops h r secs r' E Hm Hp IH]; intros fuel p out s' r0 Hok HA; destruct fuel as [|k]; try discriminate;
    cbn [apply_loop] in HA; rewrite E in HA; cbn [map fst concat] in *.
  - rewrite app_nil_r in *. pose proof (apply_ops_spec d [] ops out p (ops_ok_nonneg _ Hok)) as Ha. rewrite over_nil in Ha. rewrite Ha in HA.
    destruct (perform d [] out ops) as [out' [|]] eqn:Ep; cbv iota zeta in HA; rewrite over_nil in HA; [|discriminate]. rewrite Hm in HA.
    injection HA as <- <-. cbn. now apply perform_true.
  - apply Forall_app in Hok as [H1 H2]. pose proof (apply_ops_spec d [] ops out p (ops_ok_nonneg _ H1)) as Ha. rewrite over_nil in Ha. rewrite Ha in HA.
    destruct (perform d [] out ops) as [out' [|]] eqn:Ep; cbv iota zeta in HA; rewrite over_nil in HA; [|discriminate]. rewrite Hm in HA.
    apply perform_true in Ep. rewrite run_ops_app, Ep. eapply IH; [exact H2|exact HA].
Qed.

(** What the hypotheses "the patch applies" and "its operations are ops" give. *)
Lemma applies_extract m cd patch src out ops : applies m cd patch src out -> reads_as m cd patch ops -> Forall op_ok ops ->
  extract_patch_instructions m cd patch = Ok (number 0 ops, fold_left stats_op ops stats_new) /\ run_ops src [] ops = Some out.
Proof.
  intros (p & H) (secs & r & Hp & ->) Hok. unfold apply_patch in H.
  destruct (apply_loop (next_section m cd) (S (length patch)) (Some src) patch (mkSink [] 0) 0) as [s' rr] eqn:E.
  injection H as -> H. destruct rr as [rest| | |]; try discriminate. clear H.
  destruct (apply_loop_reads _ _ _ _ _ _ _ _ E) as (secs' & Hp' & Hl). destruct (patch_read_det _ _ _ _ Hp _ _ Hp') as [-> ->].
  split; [now apply (extract_loop_spec m cd patch secs' rest)|]. exact (apply_loop_runs _ src _ _ _ Hp _ _ [] _ _ Hok E).
Qed.

(** ** Statistics *)
Lemma stats_fold : forall ops s, Forall op_ok ops -> fold_left stats_op ops s =
  mkStats (st_add_bytes s + bytes_of is_add ops) (st_run_bytes s + bytes_of is_run_op ops) (st_copy_bytes s + 2 * bytes_of is_copy ops)
    (st_add_cnt s + cnt is_add ops) (st_run_cnt s + cnt is_run_op ops) (st_copy_d_cnt s + 2 * cnt is_dict_copy ops + cnt is_out_copy ops)
    (st_copy_o_cnt s + cnt is_out_copy ops) (st_output s + ops_len ops + bytes_of is_copy ops).
Proof.
  induction ops as [|o ops IH]; intros s H; cbn [fold_left].
  - destruct s. unfold cnt, bytes_of, zlen, ops_len. cbn. f_equal; lia.
  - inversion H as [|? ? H1 H2]; subst. rewrite IH by exact H2. destruct (oal_op_ok o H1) as [E _].
    destruct o as [bs|b n|[] a n]; unfold cnt, bytes_of, stats_op; cbn [filter is_add is_run_op is_copy is_dict_copy is_out_copy]; rewrite ?ops_len_cons, ?zlen_cons, E;
      cbn [stats_add stats_run stats_copy_d stats_copy_o st_add_bytes st_run_bytes st_copy_bytes st_add_cnt st_run_cnt st_copy_d_cnt st_copy_o_cnt st_output]; f_equal; lia.
Qed.
Lemma copy_bytes_zero ops : Forall op_good ops -> 0 <= bytes_of is_copy ops /\ (bytes_of is_copy ops = 0 <-> existsb is_copy ops = false).
Proof.
  unfold bytes_of. induction 1 as [|o ops H _ [IH1 IH2]]; [cbn; split; [lia|tauto]|]. cbn [filter existsb]. pose proof (good_oal _ H).
  destruct (is_copy o); cbn [orb]; [rewrite ops_len_cons|].
  - split; [lia|]. split; [lia|discriminate].
  - split; [lia|exact IH2].
Qed.
Lemma copy_split : forall ops, existsb is_copy ops = existsb is_dict_copy ops || existsb is_out_copy ops.
Proof. induction ops as [|o ops IH]; [reflexivity|]. cbn [existsb]. rewrite IH. destruct o as [|?|[]]; cbn; rewrite ?orb_true_r; reflexivity. Qed.

(** ** Merger *)
(** A merger that stands for a patch turning [mid] into [out]. *)
Definition merger_for (mid out : list Z) (g : merger) : Prop :=
  contiguous 0 (mg_patch g) /\ Forall (in_place mid out) (mg_patch g) /\ no_out (mg_patch g) /\ slen (mg_patch g) = zlen out /\
  mg_copies g = find_mergeable (mg_patch g) 0.
(** The outcome of new and merge for a patch turning [src] into [out]. *)
Definition merged_for (m : mode) (src out : list Z) (r : merged) : Prop :=
  match r with
  | Open g => merger_for src out g
  | Summary ops => Forall op_good ops /\ existsb is_copy ops = false /\ forall d, run_ops d [] ops = Some out
  end.

Lemma no_copy_run : forall ops d d' out, existsb is_dict_copy ops = false -> run_ops d out ops = run_ops d' out ops.
Proof.
  induction ops as [|o ops IH]; intros d d' out H; [reflexivity|]. cbn [existsb] in H. apply orb_false_iff in H as [H1 H2]. cbn [run_ops].
  replace (op_bytes d out o) with (op_bytes d' out o) by (destruct o as [|?|[]]; try reflexivity; discriminate).
  destruct (op_bytes d' out o); [now apply IH|reflexivity].
Qed.
Lemma pls_ops_good d o l : Forall (in_place d o) l -> Forall op_good (map snd l).
Proof. intro H. apply Forall_map. now apply pls_good in H. Qed.
Lemma zlen_pl_list d o l : Forall (in_place d o) l -> zlen l <= slen l.
Proof. intro H. unfold slen. rewrite <- (zlen_map snd l). apply good_zlen. eapply pls_ops_good; eassumption. Qed.

Lemma merger_new_spec m cd patch src out ops : zlen src < 2 ^ 63 -> zlen out < 2 ^ 63 -> applies m cd patch src out -> reads_as m cd patch ops -> Forall op_good ops ->
  (m = Release \/ existsb is_copy ops = false \/ existsb is_dict_copy ops = true) ->
  exists r, merger_new m cd patch = Ok r /\ merged_for m src out r.
Proof.
  intros Hs Ho HA HR Hg Hm. destruct (applies_extract _ _ _ _ _ _ HA HR (good_ok _ Hg)) as [HE Hrun]. unfold merger_new. rewrite HE. cbn [bind].
  rewrite stats_fold by now apply good_ok. cbn [st_copy_bytes stats_new]. destruct (copy_bytes_zero _ Hg) as [Hb0 Hb1].
  destruct (0 + 2 * bytes_of is_copy ops =? 0) eqn:E.
  - rewrite number_snd. eexists. split; [reflexivity|]. assert (Hn : existsb is_copy ops = false) by (apply Hb1; lia).
    split; [exact Hg|]. split; [exact Hn|]. rewrite copy_split in Hn. apply orb_false_iff in Hn as [Hn _]. intro d. now rewrite (no_copy_run _ d src).
  - destruct (deref_spec m src ops out ltac:(lia) ltac:(lia) Hg Hrun) as (r & -> & C & P & N & L & D). cbn [bind].
    assert (Ha : debug_assert_ m (negb (zlen (find_mergeable r 0) =? 0)) = Ok tt).
    { destruct Hm as [-> |Hm]; [reflexivity|]. assert (existsb is_dict_copy ops = true) by (destruct Hm as [Hm|Hm]; [apply Hb1 in Hm; lia|exact Hm]).
      assert (find_mergeable r 0 <> []) by (rewrite find_mergeable_nil; congruence). destruct (find_mergeable r 0); [contradiction|]. rewrite zlen_cons.
      pose proof (zlen_nonneg l). replace (negb (1 + zlen l =? 0)) with true by lia. destruct m; reflexivity. }
    rewrite Ha. cbn [bind]. eexists. split; [reflexivity|]. cbn [merged_for]. split; [exact C|]. split; [exact P|]. split; [exact N|]. split; [exact L|reflexivity].
Qed.

Lemma contigb l : forall p, Forall (fun x => op_good (snd x)) l -> contiguous p l -> contiguousb p l = true.
Proof.
  induction l as [|[q o] l IH]; intros p Hg H; [reflexivity|]. destruct H as [-> H]. inversion Hg as [|? ? H1 H2]; subst. cbn [contiguousb].
  destruct (good_oal _ H1) as [E _]. cbn [snd] in E. rewrite E, Z.eqb_refl. now apply IH.
Qed.
Lemma merger_merge_spec m cd g patch src mid out ops : zlen src < 2 ^ 63 -> zlen mid < 2 ^ 63 -> zlen out < 2 ^ 63 -> merger_for mid out g ->
  applies m cd patch src mid -> reads_as m cd patch ops -> Forall op_good ops ->
  exists r, merger_merge m cd g patch = Ok r /\ merged_for m src out r /\ (match r with Open g' => mg_copies g' <> [] | _ => True end).
Proof.
  intros Hs Hm Ho (C & P & N & L & X) HA HR Hg. destruct (applies_extract _ _ _ _ _ _ HA HR (good_ok _ Hg)) as [HE Hrun]. unfold merger_merge.
  rewrite contigb by (try (now apply pls_good in P); exact C). replace (debug_assert_ m true) with (@Ok unit tt) by (destruct m; reflexivity). cbn [bind].
  rewrite HE. cbn [bind]. rewrite stats_fold by now apply good_ok. cbn [st_copy_bytes stats_new]. destruct (copy_bytes_zero _ Hg) as [Hb0 Hb1].
  assert (HP : exists pr, (if 0 + 2 * bytes_of is_copy ops >? 0 then deref_copy_o m (number 0 ops) else Ok (number 0 ops)) = Ok pr /\
    contiguous 0 pr /\ Forall (in_place src mid) pr /\ no_out pr /\ slen pr = zlen mid).
  { destruct (0 + 2 * bytes_of is_copy ops >? 0) eqn:E.
    - destruct (deref_spec m src ops mid ltac:(lia) ltac:(lia) Hg Hrun) as (r & E1 & C1 & P1 & N1 & L1 & _). exists r. auto.
    - exists (number 0 ops). split; [reflexivity|]. split; [apply number_contig|]. destruct (run_number src ops [] mid Hg Hrun) as [P1 Z1]. rewrite (@zlen_nil Z) in *.
      split; [exact P1|]. split; [|rewrite slen_number; lia]. apply no_out_number. assert (Hn : existsb is_copy ops = false) by (apply Hb1; lia).
      rewrite copy_split in Hn. now apply orb_false_iff in Hn as [_ Hn]. }
  destruct HP as (pr & -> & C1 & P1 & N1 & L1). cbn [bind].
  assert (HT : zlen (mg_patch g) < 2 ^ 63) by (pose proof (zlen_pl_list _ _ _ P); lia).
  destruct (merge_loop_spec m src mid out (mg_patch g) pr ltac:(lia) ltac:(lia) HT C1 P1 N1 L1 (mg_patch g) [] 0 eq_refl C P N) as (ix & ins & E & K & C2 & P2 & N2 & L2 & X2).
  { unfold slen; cbn; lia. }
  change (zlen (@nil sparse)) with 0 in *. change (slen []) with 0 in *. rewrite X, E. cbn [bind].
  assert (Ee : expand_to (mg_patch g) ins = expand_loop (mg_patch g) ins 0 0) by (unfold expand_to; rewrite (sort_id ins 0 K); reflexivity).
  rewrite Ee. set (e := expand_loop (mg_patch g) ins 0 0) in *. destruct (zlen ix =? 0) eqn:Ez.
  - eexists. split; [reflexivity|]. split; [|exact I]. cbn [merged_for]. assert (Hnd : existsb is_dict_copy (map snd e) = false).
    { apply (find_mergeable_nil e (0 + 0)). rewrite <- X2. apply zlen_0. lia. }
    split; [now apply pls_ops_good in P2|]. split; [rewrite copy_split, Hnd; now apply no_out_ops|]. intro d. rewrite (no_copy_run _ d src) by exact Hnd.
    apply pl_run0; auto; lia.
  - eexists. split; [reflexivity|]. cbn [merged_for mg_copies]. split; [|intro; subst; rewrite H in Ez; cbn in Ez; lia]. unfold merger_for. cbn [mg_patch mg_copies].
    split; [exact C2|]. split; [exact P2|]. split; [exact N2|]. split; [lia|exact X2].
Qed.
Lemma merger_finish_spec src out g : merger_for src out g -> Forall op_good (merger_finish g) /\ run_ops src [] (merger_finish g) = Some out /\ existsb is_out_copy (merger_finish g) = false.
Proof.
  intros (C & P & N & L & _). split; [now apply pls_ops_good in P|]. split; [now apply pl_run0|]. now apply no_out_ops.
Qed.

(** ** Writing *)
Lemma write_all_is wr f : forall secs src trgt cur, write_all_sections wr f secs = write_sections Release wr f src trgt cur secs.
Proof. induction secs as [|[ops h] secs IH]; intros; [reflexivity|]. cbn [write_all_sections write_sections]. cbv zeta. unfold wlift at 1. cbn [wbind].
  rewrite (IH src trgt (cur + h_osize (set_format h f))). destruct (wr ops (set_format h f)) as [o [[]| | |]]; try reflexivity. cbn [wbind]. now destruct (write_sections Release wr f src trgt (cur + h_osize (set_format h f)) secs). Qed.
Lemma write_all_apply m m' cd sc f seg ops src out b t old p : comp_lossless cd sc out -> makes src [] ops out -> zlen out < 2 ^ 63 -> zlen src < 2 ^ 63 ->
  write_all_sections (section_writer m cd sc) f (make_sections ops seg) = (b, Ok tt) ->
  exists p', apply_patch m' cd (b ++ t) (Some src) (mkSink old p) = (mkSink (over out old) p', Ok tt).
Proof.
  intros Hc Hmk Ho Hs H. rewrite (write_all_is _ _ _ [] [] 0) in H. destruct (sections_in f seg src out ops Hmk Ho Hs) as (Hcat & Hfl & Hin).
  assert (Hsg : secs_good (next_section m' cd) (map (sec_with f (comp_value sc)) (make_sections ops seg)) b).
  { eapply write_sections_good; [| | |exact Hfl|exact H].
    - intros ops' h' b' He Hi Hw. exact (section_writer_good m m' cd sc f ops' h' b' (comp_lossless_imp cd sc out ops' He Hc) Hi Hw).
    - exact (makes_sections_empty ops seg src out Hmk).
    - eapply Forall_impl; [|exact Hin]. intros s (G1 & G2 & G3 & G4 & G5 & G5b & G6).
      repeat (split; [assumption|]). eapply Z.le_trans; [exact G6|]. unfold clamp_section, max_inst_size, max_win_size. lia. }
  apply secs_good_stream in Hsg. rewrite sec_with_ops in Hsg.
  destruct Hmk as [Hg Hr]. destruct (apply_patch_stream _ m' cd _ b t src old p Hsg) as (p' & E).
  { rewrite Hcat. apply ops_ok_nonneg, good_ok, Hg. }
  exists p'. rewrite E, Hcat. cbn [app] in Hr. rewrite (perform_old _ _ _ _ _ (ops_ok_nonneg _ (good_ok _ Hg)) Hr). reflexivity.
Qed.
