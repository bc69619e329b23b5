(** Properties C73-C76: patches made by one tool are inputs of the others. A written merged patch is a link of a chain again, merging in steps
    gives the same summary as merging at once, and a whole history of versions can be encoded, transcoded, merged and applied. *)
From Verif Require Import Base Spec SpecEnc MCommon MWriter MReader MDecoder MOpMaker MTrgtMatcher MSrcMatcher MEncInner MEncode MMerger MTranscoder SpecApi SpecMerge
  PBase PStream PSection PWriter PDecoder PPatch POpMaker PEncode PMerge PMerge2 PMerge3 PMerge4 PTrans MVcdiff SpecVcd PVcdiff PFormat PFormat2 TEncode TMerge TTrans TVcdiff TFormat.
From Verif Require SpecFmt.
Ltac Zify.zify_post_hook ::= idtac.
Arguments Z.add : simpl never.
Arguments Z.sub : simpl never.
Arguments Z.mul : simpl never.
Arguments Z.pow : simpl never.

Lemma write_all_reads m m' cd sc f seg ops src out b : comp_lossless cd sc out -> makes src [] ops out -> zlen out < 2 ^ 63 -> zlen src < 2 ^ 63 ->
  write_all_sections (section_writer m cd sc) f (make_sections ops seg) = (b, Ok tt) -> reads_as m' cd b ops.
Proof.
  intros Hc Hmk Ho Hs H. rewrite (write_all_is _ _ _ [] [] 0) in H. destruct (sections_in f seg src out ops Hmk Ho Hs) as (Hcat & Hfl & Hin).
  assert (Hsg : secs_good (next_section m' cd) (map (sec_with f (comp_value sc)) (make_sections ops seg)) b).
  { eapply write_sections_good; [| | |exact Hfl|exact H].
    - intros ops' h' b' He Hi Hw. exact (section_writer_good m m' cd sc f ops' h' b' (comp_lossless_imp cd sc out ops' He Hc) Hi Hw).
    - exact (makes_sections_empty ops seg src out Hmk).
    - eapply Forall_impl; [|exact Hin]. intros s (G1 & G2 & G3 & G4 & G5 & G5b & G6).
      repeat (split; [assumption|]). eapply Z.le_trans; [exact G6|]. unfold clamp_section, max_inst_size, max_win_size. lia. }
  destruct (secs_good_read _ _ _ Hsg []) as (outs & Hrd & Hall). rewrite app_nil_r in Hrd. exists outs, []. split; [exact Hrd|].
  rewrite (Forall2_fst _ _ _ (fun _ _ X => proj1 X) Hall), sec_with_ops, Hcat. reflexivity.
Qed.
Lemma summary_write_reads m m' cd ops src out seg f sc b : comp_lossless cd sc out -> Forall op_good ops -> run_ops src [] ops = Some out -> zlen out < 2 ^ 63 -> zlen src < 2 ^ 63 ->
  summary_write m cd ops seg f sc = (b, Ok tt) -> reads_as m' cd b ops.
Proof.
  intros Hc Hg Hr Ho Hs H. unfold summary_write in H. cbv zeta in H. rewrite clamp_idem in H.
  exact (write_all_reads m m' cd sc _ _ ops src out b Hc (conj Hg Hr) Ho Hs H).
Qed.

(** C73. The written summary of a chain is itself a good patch from the oldest source to the newest target, in every build; and it can always be the newest
    patch of a further merge (the debug assertion of property C52 never fires for it). *)
Theorem C73_merged_patch_is_a_link : forall m m' cd newest older src out r seg f sc b, chain m cd src (newest :: older) out -> zlen src < 2 ^ 63 -> new_ok m cd newest ->
  merge_from m cd newest older = Ok r -> comp_lossless cd sc out -> summary_write m cd (summary_of r) seg f sc = (b, Ok tt) ->
  good_patch m' cd b src out /\ new_ok m' cd b /\ reads_as m' cd b (summary_of r).
Proof.
  intros m m' cd newest older src out r seg f sc b Hch Hs Hn E Hc Hw.
  destruct (C49_merge_chain _ _ _ _ _ _ Hch Hs Hn) as (r' & E' & Hg & Hr & Ho'). rewrite E in E'. injection E' as <-.
  pose proof (chain_bound _ _ _ _ _ Hch Hs) as Ho.
  pose proof (summary_write_reads m m' cd _ src out seg f sc b Hc Hg Hr Ho Hs Hw) as HR.
  split; [|split; [|exact HR]].
  - split; [|split; [exact Hs|split; [exact Ho|exists (summary_of r); split; [exact HR|exact Hg]]]].
    destruct (summary_write_apply m m' cd _ src out seg f sc b [] [] 0 Hc Hg Hr Ho Hs Hw) as (p' & E'). exists p'. rewrite app_nil_r in E'. rewrite E'.
    unfold over, drop. rewrite skipn_nil, app_nil_r. reflexivity.
  - right. exists (summary_of r). split; [exact HR|]. rewrite copy_split, Ho', orb_false_r. destruct (existsb is_dict_copy (summary_of r)); auto.
Qed.
Lemma chain_app m cd mid out newer : chain m cd mid newer out -> forall src older, chain m cd src older mid -> chain m cd src (newer ++ older) out.
Proof. induction 1 as [x|src mid out p older' Hc IH Hg]; intros s o H; [exact H|]. cbn [app]. econstructor; [now apply IH|exact Hg]. Qed.
(** So it can replace the patches it was made from in any longer chain, on either side. *)
Theorem C73_chain_with_merged_part : forall m m' cd newest older src mid src0 out0 r seg f sc b newer oldest, chain m cd src (newest :: older) mid -> zlen src < 2 ^ 63 -> new_ok m cd newest ->
  merge_from m cd newest older = Ok r -> comp_lossless cd sc mid -> summary_write m cd (summary_of r) seg f sc = (b, Ok tt) ->
  chain m' cd src0 oldest src -> chain m' cd mid newer out0 -> chain m' cd src0 (newer ++ b :: oldest) out0.
Proof.
  intros m m' cd newest older src mid src0 out0 r seg f sc b newer oldest Hch Hs Hn E Hc Hw H1 H2.
  destruct (C73_merged_patch_is_a_link m m' cd newest older src mid r seg f sc b Hch Hs Hn E Hc Hw) as (Hg & _).
  apply (chain_app _ _ _ _ _ H2). econstructor; [exact H1|exact Hg].
Qed.

(** ** Merging in steps *)
Lemma number_of : forall l p, contiguous p l -> number p (map snd l) = l.
Proof. induction l as [|[q o] l IH]; intros p H; [reflexivity|]. destruct H as [-> H]. cbn [map snd number]. now rewrite IH. Qed.
Lemma deref_none m : forall ops out pos, Forall op_good ops -> existsb is_out_copy ops = false -> deref_loop m (number pos ops) out pos = Ok (out ++ number pos ops).
Proof.
  induction ops as [|o ops IH]; intros out pos Hg Hn; cbn [number deref_loop]; [now rewrite app_nil_r|].
  inversion Hg as [|? ? G1 G2]; subst. cbn [existsb] in Hn. apply orb_false_iff in Hn as [N1 N2]. destruct (good_oal _ G1) as [Eo _].
  replace (match o with Copy Output a n => do r <- get_exact_slice m out a n; match r with Some l => Ok l | None => Panic end | _ => Ok [(0, o)] end) with (Ok [(0, o)])
    by (destruct o as [|?|[]]; try reflexivity; discriminate).
  cbn [bind place]. rewrite Eo, IH by assumption. now rewrite <- app_assoc.
Qed.
Lemma place_snd : forall l pos, map snd (fst (place l pos)) = map snd l.
Proof. induction l as [|[q o] l IH]; intro pos; [reflexivity|]. cbn [place]. specialize (IH (pos + oal o)). destruct (place l (pos + oal o)). cbn [fst map snd] in *. now rewrite IH. Qed.
Lemma merge_more_app m cd : forall older g g' rest, merge_more m cd g older = Ok (Open g') -> merge_more m cd g (older ++ rest) = merge_more m cd g' rest.
Proof.
  induction older as [|p older IH]; intros g g' rest H; cbn [merge_more app] in *; [now injection H as <-|].
  destruct (merger_merge m cd g p) as [[g1|o]| | |]; cbn [bind] in *; try discriminate. now apply IH.
Qed.
Lemma merge_from_app m cd p older g rest : merge_from m cd p older = Ok (Open g) -> merge_from m cd p (older ++ rest) = merge_more m cd g rest.
Proof. unfold merge_from. destruct (merger_new m cd p) as [[g'|o]| | |]; cbn [bind]; try discriminate. apply merge_more_app. Qed.

Lemma new_no_copy m cd b ops : Forall op_good ops -> existsb is_copy ops = false ->
  extract_patch_instructions m cd b = Ok (number 0 ops, fold_left stats_op ops stats_new) -> merger_new m cd b = Ok (Summary ops).
Proof.
  intros Hg Hn HE. unfold merger_new. rewrite HE. cbn [bind]. rewrite stats_fold by now apply good_ok. cbn [st_copy_bytes stats_new].
  destruct (copy_bytes_zero _ Hg) as [Hb0 Hb1]. replace (0 + 2 * bytes_of is_copy ops =? 0) with true by (apply Hb1 in Hn; lia). now rewrite number_snd.
Qed.
Lemma new_same m cd b g : Forall op_good (merger_finish g) -> existsb is_dict_copy (merger_finish g) = true -> existsb is_out_copy (merger_finish g) = false ->
  contiguous 0 (mg_patch g) -> mg_copies g = find_mergeable (mg_patch g) 0 ->
  extract_patch_instructions m cd b = Ok (number 0 (merger_finish g), fold_left stats_op (merger_finish g) stats_new) -> merger_new m cd b = Ok (Open g).
Proof.
  intros Hg Hd Hn Hct Hix HE. unfold merger_new. rewrite HE. cbn [bind]. rewrite stats_fold by now apply good_ok. cbn [st_copy_bytes stats_new].
  destruct (copy_bytes_zero _ Hg) as [Hb0 Hb1].
  assert (Hcp : existsb is_copy (merger_finish g) = true) by (rewrite copy_split, Hd; reflexivity).
  replace (0 + 2 * bytes_of is_copy (merger_finish g) =? 0) with false by (destruct (Z.eq_dec (bytes_of is_copy (merger_finish g)) 0) as [E|E]; [apply Hb1 in E; congruence|lia]).
  unfold deref_copy_o. rewrite deref_none by assumption. cbn [app bind]. unfold merger_finish in *. rewrite (number_of _ _ Hct), <- Hix.
  assert (mg_copies g <> []) as Hne by (rewrite Hix; intro E; apply find_mergeable_nil in E; congruence).
  replace (debug_assert_ m (negb (zlen (mg_copies g) =? 0))) with (@Ok unit tt)
    by (destruct (mg_copies g) as [|x l]; [contradiction|]; rewrite zlen_cons; pose proof (zlen_nonneg l); replace (negb (1 + zlen l =? 0)) with true by lia; now destruct m).
  cbn [bind]. now destruct g.
Qed.

(** C74. Merging in steps, newest patches first: write the summary of the newer patches and use it as the newest patch for the older ones. Both ways succeed and yield exactly
    the same summary operations, whatever the format, section size and compression of the intermediate patch. *)
Theorem C74_merge_in_steps : forall m m0 cd newest older oldest src mid out r seg f sc b, chain m cd mid (newest :: older) out -> zlen mid < 2 ^ 63 -> new_ok m cd newest ->
  merge_from m cd newest older = Ok r -> comp_lossless cd sc out -> summary_write m0 cd (summary_of r) seg f sc = (b, Ok tt) ->
  chain m cd src oldest mid -> zlen src < 2 ^ 63 ->
  exists r1 r2, merge_from m cd newest (older ++ oldest) = Ok r1 /\ merge_from m cd b oldest = Ok r2 /\ summary_of r1 = summary_of r2.
Proof.
  intros m m0 cd newest older oldest src mid out r seg f sc b Hch Hs Hn E Hc Hw Hold Hs0.
  destruct (merge_from_spec _ _ _ _ _ _ Hch Hs Hn) as (r' & E' & Hm). rewrite E in E'. injection E' as <-.
  destruct (merged_summary _ _ _ _ Hm) as (Hg & Hr & Ho'). pose proof (chain_bound _ _ _ _ _ Hch Hs) as Ho.
  pose proof (summary_write_reads m0 m cd _ mid out seg f sc b Hc Hg Hr Ho Hs Hw) as HR.
  destruct (summary_write_apply m0 m cd _ mid out seg f sc b [] [] 0 Hc Hg Hr Ho Hs Hw) as (p' & HA). rewrite app_nil_r in HA.
  unfold over, drop in HA. rewrite skipn_nil, app_nil_r in HA.
  destruct (applies_extract m cd b mid out (summary_of r) (ex_intro _ p' HA) HR (good_ok _ Hg)) as [HE _].
  destruct r as [g|ops]; cbn [summary_of] in *.
  - rewrite (merge_from_app _ _ _ _ _ _ E). destruct Hm as (H1 & H2 & H3 & H4 & H5).
    destruct (merge_more_spec m cd oldest src mid Hold out g Hs0 Ho (conj H1 (conj H2 (conj H3 (conj H4 H5))))) as (r1 & E1 & _).
    exists r1. destruct (existsb is_dict_copy (merger_finish g)) eqn:Hd.
    + exists r1. split; [exact E1|]. split; [|reflexivity]. unfold merge_from. rewrite (new_same m cd b g Hg Hd Ho' H1 H5 HE). exact E1.
    + assert (Hcp : existsb is_copy (merger_finish g) = false) by (rewrite copy_split, Hd; exact Ho').
      exists (Summary (merger_finish g)). split; [exact E1|]. split; [unfold merge_from; rewrite (new_no_copy m cd b _ Hg Hcp HE); reflexivity|].
      assert (Hix : mg_copies g = []) by (rewrite H5; now apply find_mergeable_nil).
      destruct oldest as [|p oldest]; cbn [merge_more] in E1; [injection E1 as <-; reflexivity|].
      unfold merger_merge in E1. rewrite contigb in E1 by (try (now apply pls_good in H2); exact H1). replace (debug_assert_ m true) with (@Ok unit tt) in E1 by (destruct m; reflexivity).
      rewrite Hix in E1. cbn [bind merge_loop] in E1.
      apply bind_ok in E1 as (rr & E1 & E2). apply bind_ok in E1 as ([pr st] & E3 & E4). apply bind_ok in E4 as (pr' & E5 & E6).
      change (zlen (@nil Z) =? 0) with true in E6. cbv iota in E6. injection E6 as <-. injection E2 as <-. cbn [summary_of].
      unfold expand_to. cbn [sort_by_key fold_right expand_loop]. apply place_snd.
  - exists (Summary ops), (Summary ops). split; [now apply merge_from_early|]. split; [|reflexivity].
    destruct Hm as (H1 & H2 & H3). unfold merge_from. rewrite (new_no_copy m cd b ops H1 H2 HE). reflexivity.
Qed.

(** ** A workflow of any shape *)
(** [made cd p src out]: [p] was made as a patch from [src] to [out] by some combination of encode, transcode, merging a chain of such patches and writing the summary, and converting a
    VCDIFF stream; each step in any build mode, with any settings, provided only that it reported success. Sizes are below 2^63. *)
Inductive made (cd : codecs) : list Z -> list Z -> list Z -> Prop :=
| made_encode m c src out p : comp_lossless cd (cf_comp c) out -> Forall is_byte out -> zlen out < 2 ^ 63 -> zlen src < 2 ^ 63 ->
    encode m cd c (Some src) out = (p, Ok tt) -> made cd p src out
| made_transcode m p f sc seg src out p' : made cd p src out -> comp_lossless cd sc out -> transcode m cd p f sc seg = (p', Ok tt) -> made cd p' src out
| made_vcdiff m src msgs out p : vcdiff_of src msgs out -> zlen src < 2 ^ 63 -> zlen out < 2 ^ 63 -> existsb long_seq (all_insts msgs) = false ->
    convert_vcdiff m msgs = (p, Ok tt) -> made cd p src out
| made_merge m newest older src out r seg f sc p : made_chain cd src (newest :: older) out -> merge_from m cd newest older = Ok r -> comp_lossless cd sc out ->
    summary_write m cd (summary_of r) seg f sc = (p, Ok tt) -> made cd p src out
with made_chain (cd : codecs) : list Z -> list (list Z) -> list Z -> Prop :=
| mc_nil x : zlen x < 2 ^ 63 -> made_chain cd x [] x
| mc_cons src mid out p older : made_chain cd src older mid -> made cd p mid out -> made_chain cd src (p :: older) out.
Scheme made_mut := Minimality for made Sort Prop with made_chain_mut := Minimality for made_chain Sort Prop.

Fixpoint run_atoms (d out : list Z) (l : list atom) : option (list Z) :=
  match l with
  | [] => Some out
  | inl b :: r => run_atoms d (out ++ [b]) r
  | inr (s, a, n) :: r => match op_bytes d out (Copy s a n) with Some x => run_atoms d (out ++ x) r | None => None end
  end.
Lemma run_atoms_lits d : forall bs out r, run_atoms d out (map inl bs ++ r) = run_atoms d (out ++ bs) r.
Proof. induction bs as [|b bs IH]; intros out r; cbn [map app run_atoms]; [now rewrite app_nil_r|]. rewrite IH, <- app_assoc. reflexivity. Qed.
Lemma run_ops_atoms d : forall ops out, run_ops d out ops = run_atoms d out (atoms ops).
Proof.
  unfold atoms. induction ops as [|x ops IH]; intro out; [reflexivity|]. cbn [run_ops flat_map]. destruct x as [bs|b n|s a n]; cbn [op_bytes].
  - rewrite run_atoms_lits. apply IH.
  - rewrite run_atoms_lits. apply IH.
  - cbn [app run_atoms]. change (match s with Dict => _ | Output => _ end) with (op_bytes d out (Copy s a n)). destruct (op_bytes d out (Copy s a n)); [apply IH|reflexivity].
Qed.
Lemma good_of_secs m cd secs b src out : (forall m', secs_good (next_section m' cd) secs b) -> Forall op_good (concat (map fst secs)) -> run_ops src [] (concat (map fst secs)) = Some out ->
  zlen src < 2 ^ 63 -> zlen out < 2 ^ 63 -> good_patch m cd b src out.
Proof.
  intros G Hg Hr Hs Ho. specialize (G m). split; [|split; [exact Hs|split; [exact Ho|]]].
  - apply secs_good_stream in G. destruct (apply_patch_stream _ m cd _ b [] src [] 0 G (ops_ok_nonneg _ (good_ok _ Hg))) as (p' & Ea). exists p'. rewrite app_nil_r in Ea. rewrite Ea.
    rewrite (perform_old _ _ _ _ _ (ops_ok_nonneg _ (good_ok _ Hg)) Hr). unfold over, drop. now rewrite skipn_nil, app_nil_r.
  - destruct (secs_good_read _ _ _ G []) as (outs & Hp & Hall). rewrite app_nil_r in Hp. exists (concat (map fst outs)). split; [exists outs, []; auto|].
    rewrite (Forall2_fst _ _ _ (fun _ _ X => proj1 X) Hall). exact Hg.
Qed.
Lemma good_trans_ops m cd p src out : good_patch m cd p src out -> out <> [] -> exists ops, trans_ops m cd p ops /\ Forall op_good ops /\ run_ops src [] ops = Some out.
Proof.
  intros (HA & Hs & Ho & ops & HR & Hg) Hne. destruct (applies_extract _ _ _ _ _ _ HA HR (good_ok _ Hg)) as [HE Hrun]. exists ops. split; [|auto].
  pose proof (run_ops_len src ops [] _ (ops_ok_nonneg _ (good_ok _ Hg)) Hrun) as Hl. rewrite (@zlen_nil Z) in Hl. pose proof (good_zlen _ Hg).
  split; [eexists; exact HE|]. split; [now apply good_ok|]. split; [intros ->; cbn in Hrun; congruence|]. split; [lia|]. split.
  - pose proof (run_ops_addrs src (2 ^ 63) ltac:(lia) ops [] out Hrun Hg ltac:(lia)) as Ha. unfold addrs_lt in Ha. rewrite Forall_forall in Ha. intros s a n Hin. apply (Ha _ Hin).
  - right. eapply Forall_impl; [|exact Hg]. intros x Hx. apply Hx.
Qed.
Lemma good_transcode m cd p src out f sc seg p' : good_patch m cd p src out -> comp_lossless cd sc out -> transcode m cd p f sc seg = (p', Ok tt) -> forall m', good_patch m' cd p' src out.
Proof.
  intros Hp Hcl H m'. assert (Hne : out <> []).
  { intros ->. destruct Hp as (HA & Hs & Ho & ops & HR & Hg). destruct (applies_extract _ _ _ _ _ _ HA HR (good_ok _ Hg)) as [HE Hrun].
    pose proof (run_ops_len src ops [] _ (ops_ok_nonneg _ (good_ok _ Hg)) Hrun) as Hl. rewrite !(@zlen_nil Z) in Hl. pose proof (good_zlen _ Hg).
    assert (ops = []) as -> by (apply zlen_0; pose proof (zlen_nonneg ops); lia). cbn [number] in HE. unfold transcode in H. rewrite HE in H. unfold wlift in H. cbn [wbind fst number map] in H. rewrite optimize_nil in H. discriminate. }
  destruct (good_trans_ops _ _ _ _ _ Hp Hne) as (ops & Ht & Hg & Hr). destruct Hp as (_ & Hs & Ho & _).
  destruct (trans_ops_spec m cd p ops f sc seg Ht) as (ops' & Eo & A & O & N & Z0 & Hcp & Et & Hcat & Hfl & Hin).
  rewrite Et, (write_all_is _ _ _ [] [] 0) in H.
  apply (good_of_secs m' cd (map (sec_with f (comp_value sc)) (make_sections ops' seg)) p' src out).
  - intro m2. eapply write_sections_good; [| | |exact Hfl|exact H].
    + intros ops1 h1 b1 He Hi Hw. exact (section_writer_good m m2 cd sc f ops1 h1 b1 (comp_lossless_imp cd sc out ops1 He Hcl) Hi Hw).
    + eapply Forall_impl; [|exact Hin]. intros s (_ & _ & Hx) E. specialize (Hx E). subst ops'. cbn in A. rewrite run_ops_atoms, <- A in Hr. cbn in Hr. congruence.
    + eapply Forall_impl; [|exact Hin]. intros s Hx. apply Hx.
  - rewrite sec_with_ops, Hcat. rewrite Forall_forall in *. intros x Hx. split; [now apply O|]. destruct (N x Hx) as [Hy|Hy]; [|exact Hy].
    apply Hg. assert (In x (filter is_copy ops)) as G by (rewrite <- Hcp; apply filter_In; auto). now apply filter_In in G.
  - rewrite sec_with_ops, Hcat, run_ops_atoms, A, <- run_ops_atoms. exact Hr.
  - exact Hs.
  - exact Ho.
Qed.
Lemma merge_ok_new m cd p older r src out : good_patch m cd p src out -> merge_from m cd p older = Ok r -> new_ok m cd p.
Proof.
  intros (HA & Hs & Ho & ops & HR & Hg) H. pose proof (C52_new_exact m cd p src out ops HA HR Hg Hs Ho) as X. unfold merge_from in H. destruct m; [|now left].
  right. exists ops. split; [exact HR|]. destruct (existsb is_dict_copy ops) eqn:E; [now right|left]. rewrite copy_split, E. destruct (existsb is_out_copy ops) eqn:E2; [|reflexivity].
  cbn [andb negb] in X. rewrite X in H. discriminate.
Qed.
(** C75. Every patch made by any such workflow is good in every build: it applies to its source and yields its target, and can be used in further merges and transcodings. *)
Theorem C75_every_workflow : forall cd p src out, made cd p src out -> forall m, good_patch m cd p src out.
Proof.
  intro cd. apply (made_mut cd (fun p src out => forall m, good_patch m cd p src out) (fun src ps out => zlen src < 2 ^ 63 /\ forall m, chain m cd src ps out)).
  - intros m c src out p Hc Hb Ho Hs H m'. exact (C49_encoded_patches_merge m m' cd c src out p Hc Hb Ho Hs H).
  - intros m p f sc seg src out p' _ IH Hc H m'. exact (good_transcode m cd p src out f sc seg p' (IH m) Hc H m').
  - intros m src msgs out p Hv Hs Ho Hl H m'. destruct (convert_good m src msgs out Hv Hs Ho Hl) as (b & secs & E & G & [Hg Hr] & _).
    rewrite H in E. injection E as <-. exact (good_of_secs m' cd secs p src out (fun m2 => G m2 cd) Hg Hr Hs Ho).
  - intros m newest older src out r seg f sc p _ [Hs IH] E Hc Hw m'. specialize (IH m).
    assert (Hn : new_ok m cd newest) by (inversion IH; subst; eapply merge_ok_new; eassumption).
    exact (proj1 (C73_merged_patch_is_a_link m m' cd newest older src out r seg f sc p IH Hs Hn E Hc Hw)).
  - intros x Hx. split; [exact Hx|]. intro m. constructor.
  - intros src mid out p older _ [Hs IH1] _ IH2. split; [exact Hs|]. intro m. econstructor; [apply IH1|apply IH2].
Qed.
Lemma made_chain_chain cd src ps out : made_chain cd src ps out -> zlen src < 2 ^ 63 /\ forall m, chain m cd src ps out.
Proof.
  induction 1 as [x Hx|src mid out p older _ [Hs IH] Hp]; [split; [exact Hx|constructor]|]. split; [exact Hs|]. intro m. econstructor; [apply IH|now apply C75_every_workflow].
Qed.
(** And the steps themselves do not fail: release builds merge every chain of such patches, and every build writes the summary and transcodes every such patch of a non-empty
    target (if smdiff compression is asked for: when its settings are legal). *)
Theorem C75_steps_succeed : forall cd,
  (forall newest older src out, made_chain cd src (newest :: older) out -> exists r, merge_from Release cd newest older = Ok r) /\
  (forall m newest older src out r, made_chain cd src (newest :: older) out -> merge_from m cd newest older = Ok r ->
     forall m' seg f sc, legal_comp sc -> exists p, summary_write m' cd (summary_of r) seg f sc = (p, Ok tt)) /\
  (forall m p src out f sc seg, made cd p src out -> out <> [] -> legal_comp sc -> exists p', transcode m cd p f sc seg = (p', Ok tt)).
Proof.
  intro cd. split; [|split].
  - intros newest older src out H. destruct (made_chain_chain _ _ _ _ H) as [Hs Hc]. destruct (C49_merge_chain Release cd newest older src out (Hc Release) Hs (or_introl eq_refl)) as (r & E & _). eauto.
  - intros m newest older src out r H E m' seg f sc Hsc. destruct (made_chain_chain _ _ _ _ H) as [Hs Hc].
    assert (Hn : new_ok m cd newest) by (specialize (Hc m); inversion Hc; subst; eapply merge_ok_new; eassumption).
    destruct (C49_merge_chain m cd newest older src out (Hc m) Hs Hn) as (r' & E' & Hg & Hr & _). rewrite E in E'. injection E' as <-.
    exact (summary_write_ok m' cd _ src out seg f sc Hsc Hg Hr (chain_bound _ _ _ _ _ (Hc m) Hs) Hs).
  - intros m p src out f sc seg H Hne Hsc. destruct (good_trans_ops m cd p src out (C75_every_workflow _ _ _ _ H m) Hne) as (ops & Ht & _).
    destruct (trans_ops_spec m cd p ops f sc seg Ht) as (ops' & _ & _ & _ & _ & _ & _ & -> & _ & _ & Hin). apply write_all_ok; [exact Hsc|].
    eapply Forall_impl; [|exact Hin]. intros s Hx. apply Hx.
Qed.

(** C76. Whatever a workflow makes has the layout of the format specification (numbers in shortest form, true headers, version 0), so any conforming decoder accepts it, and its operations turn
    the source into the target. *)
Definition conforms (cd : codecs) (p src out : list Z) : Prop :=
  exists secs, SpecFmt.patch_enc (SpecFmt.any_pack (enc_by (zstd_enc cd)) (enc_by (brotli_enc cd)) SpecFmt.short_number 0) SpecFmt.short_number 0 secs p /\
    run_ops src [] (concat (map fst secs)) = Some out.
Lemma write_all_conforms m cd sc f secs b src out : Forall (fun s => sec_in f max_win_size (fst s, set_format (snd s) f)) secs -> flags_ok (map snd secs) ->
  write_all_sections (section_writer m cd sc) f secs = (b, Ok tt) -> run_ops src [] (concat (map fst secs)) = Some out -> conforms cd b src out.
Proof.
  intros Hin Hfl H Hr. rewrite (write_all_is _ _ _ [] [] 0) in H. exists (map (sec_with f (comp_value sc)) secs). split; [|now rewrite sec_with_ops].
  eapply write_sections_enc; [|exact Hin|exact Hfl|exact H]. intros ops h b1 Hi Hw. exact (section_writer_enc m cd sc f ops h b1 Hi Hw).
Qed.
Lemma plain_any m cd f ops h b : sec_in f max_win_size (ops, h) -> plain_writer m ops h = (b, Ok tt) ->
  SpecFmt.section_enc (SpecFmt.any_pack (enc_by (zstd_enc cd)) (enc_by (brotli_enc cd)) SpecFmt.short_number 0) SpecFmt.short_number 0 (ops, h) b.
Proof.
  intros Hi Hw. pose proof (section_writer_enc m cd None f ops h b Hi Hw) as G. cbn [comp_value] in G. rewrite (set_comp_0 h) in G by apply Hi. exact G.
Qed.
Theorem C76_workflow_conforms : forall cd p src out, made cd p src out -> conforms cd p src out.
Proof.
  intros cd p src out H. destruct H as [m c src out p Hc Hb Ho Hs H|m p f sc seg src out p' Hp Hc H|m src msgs out p Hv Hs Ho Hl H|m newest older src out r seg f sc p Hch E Hc Hw].
  - destruct (C63_encode_conforms m cd c (Some src) out p Hb Ho Hs H) as (secs & H1 & H2 & _). exists secs. auto.
  - pose proof (C75_every_workflow _ _ _ _ Hp m) as Hg. assert (Hne : out <> []).
    { intros ->. destruct Hg as (HA & Hs & Ho & ops & HR & Hg). destruct (applies_extract _ _ _ _ _ _ HA HR (good_ok _ Hg)) as [HE Hrun].
      pose proof (run_ops_len src ops [] _ (ops_ok_nonneg _ (good_ok _ Hg)) Hrun) as Hl. rewrite !(@zlen_nil Z) in Hl. pose proof (good_zlen _ Hg).
      assert (ops = []) as -> by (apply zlen_0; pose proof (zlen_nonneg ops); lia). cbn [number] in HE. unfold transcode in H. rewrite HE in H. unfold wlift in H. cbn [wbind fst number map] in H. rewrite optimize_nil in H. discriminate. }
    destruct (good_trans_ops _ _ _ _ _ Hg Hne) as (ops & Ht & Hgo & Hr).
    destruct (trans_ops_spec m cd p ops f sc seg Ht) as (ops' & Eo & A & O & N & Z0 & Hcp & Et & Hcat & Hfl & Hin). rewrite Et in H.
    eapply write_all_conforms; [|exact Hfl|exact H|].
    + eapply Forall_impl; [|exact Hin]. intros s Hx. apply Hx.
    + rewrite Hcat, run_ops_atoms, A, <- run_ops_atoms. exact Hr.
  - destruct (convert_good m src msgs out Hv Hs Ho Hl) as (b & secs & E & _ & [_ Hr] & _ & s1 & b1 & ops & h & b2 & -> & -> & W & Hi & Hw & Hm). rewrite H in E. injection E as ->.
    exists (s1 ++ [(ops, h)]). split; [|exact Hr]. clear -W Hi Hw Hm. induction W as [|ops0 h0 b0 secs bs Hi0 Hw0 Hm0 _ IH]; cbn [app].
    + apply SpecFmt.pe_last; [exact Hm|]. exact (plain_any m cd Interleaved ops h b2 Hi Hw).
    + rewrite <- app_assoc. apply SpecFmt.pe_more; [exact Hm0|exact (plain_any m cd Interleaved ops0 h0 b0 Hi0 Hw0)|exact IH].
  - destruct (made_chain_chain _ _ _ _ Hch) as [Hs Hcc]. specialize (Hcc m).
    assert (Hn : new_ok m cd newest) by (inversion Hcc; subst; eapply merge_ok_new; eassumption).
    destruct (C49_merge_chain m cd newest older src out Hcc Hs Hn) as (r' & E' & Hg & Hr & _). rewrite E in E'. injection E' as <-.
    pose proof (chain_bound _ _ _ _ _ Hcc Hs) as Ho. unfold summary_write in Hw. cbv zeta in Hw. rewrite clamp_idem in Hw.
    destruct (sections_in (match f with Some f => f | None => Interleaved end) (match seg with Some w => w | None => MAX_WIN_SIZE end) src out _ (conj Hg Hr) Ho Hs) as (Hcat & Hfl & Hin).
    eapply write_all_conforms; [|exact Hfl|exact Hw|rewrite Hcat; exact Hr].
    eapply Forall_impl; [|exact Hin]. intros s (G1 & G2 & G3 & G4 & G5 & G5b & G6).
    repeat (split; [assumption|]). eapply Z.le_trans; [exact G6|]. unfold clamp_section, max_inst_size, max_win_size. lia.
Qed.

(** ** Instances *)
Definition v4 : list Z := take 33 v3 ++ [1; 2; 3; 1; 2; 3; 1; 2; 3] ++ drop 12 v3.
Definition p34 : list Z := fst (encode Release toy mcfg (Some v3) v4).
(** The patch merged from the two newer ones, segregated, with smdiff compression. *)
Definition ok_or {A} (d : A) (r : res A) : A := match r with Ok x => x | _ => d end.
Definition r24 : merged := ok_or (Summary []) (merge_from Debug toy p34 [p23]).
Definition p24 : list Z := fst (summary_write Release toy (summary_of r24) (Some 70000) (Some Segregated) (Some (SmdiffComp (mkTC 40 2 (Some 16))))).
Lemma p24_made : made toy p24 v2 v4 /\ made_chain toy v1 [p24; p12] v4.
Proof.
  assert (H : forall m a b p, Forall is_byte b -> zlen b < 2 ^ 63 -> zlen a < 2 ^ 63 -> encode m toy mcfg (Some a) b = (p, Ok tt) -> made toy p a b).
  { intros m a b p Hb H1 H2 E. eapply (made_encode toy m mcfg); auto. apply toy_lossless. }
  assert (H12 : made toy p12 v1 v2) by (apply (H Debug); [apply byteb_ok| | |]; vm_compute; reflexivity).
  assert (H23 : made toy p23 v2 v3) by (apply (H Debug); [apply byteb_ok| | |]; vm_compute; reflexivity).
  assert (H34 : made toy p34 v3 v4) by (apply (H Release); [apply byteb_ok| | |]; vm_compute; reflexivity).
  assert (H24 : made toy p24 v2 v4).
  { eapply (made_merge toy Debug p34 [p23] v2 v4 r24 (Some 70000) (Some Segregated) (Some (SmdiffComp (mkTC 40 2 (Some 16))))).
    - econstructor; [|exact H34]. econstructor; [|exact H23]. constructor. vm_compute. reflexivity.
    - vm_compute. reflexivity.
    - exact I.
    - vm_compute. reflexivity. }
  split; [exact H24|]. econstructor; [|exact H24]. econstructor; [|exact H12]. constructor. vm_compute. reflexivity.
Qed.
(** C73, C75: the merged patch p24 (segregated, smdiff-compressed) is good and merges with the oldest patch; the result is not trivial. Then p24 is transcoded too. *)
Example C73_example : forall m, good_patch m toy p24 v2 v4 /\ new_ok m toy p24 /\ chain m toy v1 [p24; p12] v4.
Proof.
  intro m. destruct p24_made as [H1 H2]. split; [now apply C75_every_workflow|]. split; [|now apply made_chain_chain].
  assert (E : exists r, merge_from m toy p24 [p12] = Ok r) by (destruct m; eexists; vm_compute; reflexivity). destruct E as (r & E).
  exact (merge_ok_new m toy p24 [p12] r v2 v4 (C75_every_workflow toy p24 v2 v4 H1 m) E).
Qed.
(** C74: both ways of merging the three patches. *)
Example C74_example : forall m, chain m toy v2 [p34; p23] v4 /\ chain m toy v1 [p12] v2 /\
  exists r1 r2, merge_from m toy p34 [p23; p12] = Ok r1 /\ merge_from m toy p24 [p12] = Ok r2 /\ summary_of r1 = summary_of r2 /\
    summary_of r2 = [Run 14 1; Copy Dict 15 15; Add [77; 78]; Copy Dict 10 15; Add [1; 2; 3; 1; 2; 3; 1; 2; 3]; Copy Dict 26 4; Add [77; 78]; Copy Dict 10 30; Add [5; 5; 9]; Run 9 5; Copy Dict 0 19].
Proof.
  intro m. split; [|split].
  - apply chain_cons with v3; [apply chain_cons with v2; [constructor|]|];
      [apply toy_good|apply (C49_encoded_patches_merge Release m toy mcfg v3 v4); [apply toy_lossless| | | |]];
      try (apply byteb_ok); vm_compute; reflexivity.
  - apply chain_cons with v1; [constructor|]. apply toy_good; try (apply byteb_ok); vm_compute; reflexivity.
  - do 2 eexists. split; [destruct m; vm_compute; reflexivity|]. split; [destruct m; vm_compute; reflexivity|]. split; vm_compute; reflexivity.
Qed.
Example C75_example : exists p m, transcode m toy p24 Interleaved None 16777215 = (p, Ok tt) /\ p <> p24 /\ v4 <> [] /\ forall m', applies m' toy p v2 v4.
Proof.
  eexists. exists Debug. split; [vm_compute; reflexivity|]. split; [vm_compute; discriminate|]. split; [vm_compute; discriminate|].
  intro m'. apply (C75_every_workflow toy _ v2 v4). apply (made_transcode toy Debug p24 Interleaved None 16777215); [apply p24_made|exact I|vm_compute; reflexivity].
Qed.
Example C76_example : conforms toy p24 v2 v4 /\ p24 = [72; 6; 12; 93; 0; 1; 22; 150; 193; 14; 32; 42; 137; 36; 22; 131; 24; 61; 1; 2; 3; 1; 2; 3; 1; 2; 3; 5; 5; 9].
Proof. split; [apply C76_workflow_conforms, p24_made|vm_compute; reflexivity]. Qed.
Print Assumptions C73_merged_patch_is_a_link.
Print Assumptions C73_chain_with_merged_part.
Print Assumptions C74_merge_in_steps.
Print Assumptions C75_every_workflow.
Print Assumptions C75_steps_succeed.
Print Assumptions C76_workflow_conforms.
