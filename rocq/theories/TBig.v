(** Property C98: the size of merged patches. *)
From Verif Require Import Base Spec SpecEnc MCommon MWriter MReader MDecoder MOpMaker MTrgtMatcher MSrcMatcher MEncInner MEncode MMerger SpecApi SpecMerge
  PBase PCommon PStream PSection PWriter PDecoder PPatch POpMaker PEncInner PEncode PMerge PMerge2 PMerge3 PMerge4 TEncode TMerge TPipe TTrunc TOff TSize.
Ltac Zify.zify_post_hook ::= idtac.
Arguments Z.add : simpl never.
Arguments Z.sub : simpl never.
Arguments Z.mul : simpl never.
Arguments Z.pow : simpl never.
Arguments Z.div : simpl never.

(** ** What summary_write writes *)
Lemma write_all_cost m f : forall secs b, Forall (fun s => sec_in f max_win_size (fst s, set_format (snd s) f) /\ Forall near (fst s)) secs ->
  write_all_sections (plain_writer m) f secs = (b, Ok tt) -> zlen b = sections_cost f (map fst secs).
Proof.
  induction secs as [|[ops h] secs IH]; intros b Hin H.
  - apply wlift_inv in H as [-> _]. reflexivity.
  - apply Forall_cons_iff in Hin as [[Hi Hn] Hin]. cbn [fst snd] in Hi, Hn. cbn [write_all_sections] in H.
    apply wbind_ok in H as (o3 & [] & o4 & Hw & H & ->). specialize (IH _ Hin H). rewrite zlen_app, IH. cbn [map fst sections_cost fold_right].
    unfold plain_writer in Hw. apply wbind_ok in Hw as (hb & [] & ob & Eh & Eo & ->). rewrite zlen_app.
    destruct Hi as (Hok & _ & _ & Hf & Hty & (_ & M1 & M2 & M3) & _). cbn [fst snd] in *. pose proof (adds_len_bounds ops Hok).
    rewrite (write_ops_cost m ops _ ob Hok Hn Eo). rewrite (write_header_cost m ops _ hb Hty M1 M2 M3 ltac:(lia) Eh). unfold section_cost. rewrite Hf. unfold sections_cost. reflexivity.
Qed.
(** The section size summary_write uses. *)
Definition summary_section (seg : option Z) : Z := clamp_section (match seg with Some w => w | None => max_win_size end).
Definition summary_format (f : option format) : format := match f with Some f => f | None => Interleaved end.
Lemma summary_sized m m' cd ops src out seg f b : Forall op_good ops -> run_ops src [] ops = Some out -> zlen out < 2 ^ 63 -> zlen src < 2 ^ 63 ->
  summary_write m cd ops seg f None = (b, Ok tt) ->
  exists secs, patch_read (next_section m' cd) b secs [] /\ concat (map fst secs) = ops /\ zlen b = sections_cost (summary_format f) (map fst secs) /\
    3 * zlen secs + zlen ops + adds_len ops <= zlen b <= 13 * zlen secs + 13 * zlen ops + adds_len ops /\ 1 <= zlen secs <= 1 + 2 * zlen out / summary_section seg.
Proof.
  intros Hg Hr Ho Hs H. unfold summary_write in H. cbv zeta in H. rewrite clamp_idem in H. fold (summary_format f) in H. change MAX_WIN_SIZE with max_win_size in H. unfold summary_section.
  set (w := match seg with Some w => w | None => max_win_size end) in *. set (fm := summary_format f) in *.
  assert (Hmk : makes src [] ops out) by (split; [exact Hg|exact Hr]). destruct (sections_in fm w src out ops Hmk Ho Hs) as (Hcat & Hfl & Hin).
  assert (Hn : addrs_lt (2 ^ 63) ops) by (apply (run_ops_addrs src (2 ^ 63) ltac:(lia) ops [] out Hr Hg); lia).
  assert (HF : Forall (fun s => sec_in fm max_win_size (fst s, set_format (snd s) fm) /\ Forall near (fst s)) (make_sections ops w)).
  { rewrite <- Hcat in Hn. apply addrs_concat in Hn. rewrite Forall_map in Hn. rewrite Forall_forall in *. intros s Hx. destruct (Hin s Hx) as (G1 & G2 & G3 & G4 & G5 & G5b & G6).
    split; [|apply addrs_near; exact (Hn s Hx)]. repeat (split; [assumption|]). eapply Z.le_trans; [exact G6|]. unfold clamp_section, max_inst_size, max_win_size. lia. }
  assert (Hz : zlen b = sections_cost fm (map fst (make_sections ops w))) by (exact (write_all_cost m fm _ b HF H)).
  pose proof H as H0. rewrite (write_all_is _ _ _ [] [] 0) in H0.
  assert (Hsg : secs_good (next_section m' cd) (map (sec_with fm (comp_value None)) (make_sections ops w)) b).
  { eapply write_sections_good; [| | |exact Hfl|exact H0].
    - intros ops' h' b' He Hi Hw. exact (section_writer_good m m' cd None fm ops' h' b' (comp_lossless_imp cd None out ops' He I) Hi Hw).
    - exact (makes_sections_empty ops w src out Hmk).
    - eapply Forall_impl; [|exact HF]. intros s [X _]. exact X. }
  destruct (secs_good_read _ _ _ Hsg []) as (outs & Hrd & Hall). rewrite app_nil_r in Hrd.
  assert (Eo : map fst outs = map fst (make_sections ops w)) by (rewrite (Forall2_fst _ _ _ (fun _ _ X => proj1 X) Hall); apply sec_with_ops).
  exists outs. split; [exact Hrd|]. rewrite Eo. split; [exact Hcat|]. split; [exact Hz|].
  assert (Hlen : zlen outs = zlen (make_sections ops w)) by (unfold zlen; rewrite <- (map_length fst outs), Eo, map_length; reflexivity).
  assert (HG : Forall (fun ops => Forall op_good ops /\ Forall near ops /\ ops_len ops <= max_win_size) (map fst (make_sections ops w))).
  { rewrite Forall_map. pose proof Hg as Hg'. rewrite <- Hcat in Hg'. apply Forall_concat_inv in Hg'. rewrite Forall_map in Hg'. rewrite Forall_forall in *. intros s Hx. split; [exact (Hg' s Hx)|].
    destruct (HF s Hx) as [(_ & _ & _ & _ & _ & (_ & _ & M2 & _) & G6) Hnr]. split; [exact Hnr|]. cbn [fst snd] in *. rewrite <- M2. exact G6. }
  pose proof (sections_cost_range fm _ HG) as B. rewrite <- Hz, Hcat in B. replace (zlen (map fst (make_sections ops w))) with (zlen outs) in B by (unfold zlen; rewrite <- Eo, map_length; reflexivity).
  split; [exact B|]. rewrite Hlen. replace (zlen out) with (ops_len ops); [apply C90_section_count; exact (good_ok _ Hg)|].
  pose proof (run_ops_len _ _ _ _ (ops_ok_nonneg _ (good_ok _ Hg)) Hr) as L. rewrite (@zlen_nil Z) in L. cbn [app] in L. lia.
Qed.
(** C98. The merged patch of a chain, written without secondary compression: there is at most an operation for every byte of the target, and the patch has
    the size that its operations and sections have by the format, at most 13 bytes for each of them and the literal bytes. *)
Theorem C98_merged_size : forall m m' cd newest older src out r seg f b, chain m cd src (newest :: older) out -> zlen src < 2 ^ 63 -> new_ok m cd newest ->
  merge_from m cd newest older = Ok r -> summary_write m cd (summary_of r) seg f None = (b, Ok tt) ->
  exists secs, patch_read (next_section m' cd) b secs [] /\
    let ops := concat (map fst secs) in
    zlen ops <= zlen out /\ zlen b = sections_cost (summary_format f) (map fst secs) /\
    3 * zlen secs + zlen ops + adds_len ops <= zlen b <= 13 * zlen secs + 13 * zlen ops + adds_len ops /\
    1 <= zlen secs <= 1 + 2 * zlen out / summary_section seg.
Proof.
  intros m m' cd newest older src out r seg f b Hch Hs Hn E Hw. destruct (C49_merge_chain _ _ _ _ _ _ Hch Hs Hn) as (r' & E' & Hg & Hr & _). rewrite E in E'. injection E' as <-.
  pose proof (chain_bound _ _ _ _ _ Hch Hs) as Ho. destruct (summary_sized m m' cd _ src out seg f b Hg Hr Ho Hs Hw) as (secs & H1 & H2 & H3 & H4 & H5). exists secs. split; [exact H1|]. cbv zeta. rewrite H2.
  split; [|split; [exact H3|split; [exact H4|exact H5]]]. pose proof (good_zlen _ Hg). pose proof (run_ops_len _ _ _ _ (ops_ok_nonneg _ (good_ok _ Hg)) Hr) as L. rewrite (@zlen_nil Z) in L. cbn [app] in L. lia.
Qed.

(** ** Merging never joins operations *)
Definition short (L : Z) (x : sparse) : Prop := op_len (snd x) <= L.
Lemma exact_loop_short m dict out start end_pos L : zlen dict < 2 ^ 64 -> zlen out < 2 ^ 64 -> start < end_pos -> forall l q r,
  contiguous q l -> Forall (in_place dict out) l -> start < q + match l with [] => 1 | x :: _ => op_len (snd x) end -> q < end_pos -> Forall (short L) l ->
  exact_loop m start end_pos l = Ok (Some r) -> Forall (short L) r.
Proof.
  intros Hd Ho Hse. induction l as [|[q0 o] l IH]; intros q r Hc Hp Hh Hq HS H; [discriminate H|].
  destruct Hc as [-> Hc]. inversion Hp as [|? ? H1 H2]; subst. inversion HS as [|? ? S1 S2]; subst. unfold short in S1. cbn [fst snd] in *.
  pose proof (good_oal o (proj1 H1)) as [Eo Hol]. cbn [exact_loop] in H. cbv zeta in H. rewrite Eo in H.
  apply bind_ok in H as ([os o1] & E1 & H).
  assert (T1 : in_place dict out (Z.max start q, o1) /\ op_len o1 = op_len o - (Z.max start q - q)).
  { destruct (start >? q) eqn:E.
    - destruct (skip_pl m dict out q o (start - q) Hd Ho H1 ltac:(lia)) as (o' & E' & P1 & P2 & _). rewrite E' in E1. cbn [bind] in E1. injection E1 as <- <-.
      replace (Z.max start q) with start by lia. replace (q + (start - q)) with start in P1 by lia. split; [exact P1|lia].
    - injection E1 as <- <-. replace (Z.max start q) with q by lia. split; [exact H1|lia]. }
  destruct T1 as [P1 L1]. apply bind_ok in H as (o2 & E2 & H).
  assert (T2 : op_len o2 <= op_len o).
  { destruct (end_pos <? q + op_len o) eqn:E.
    - destruct (trunc_pl m dict out _ o1 (q + op_len o - end_pos) Ho P1 ltac:(lia)) as (o' & E' & _ & L2 & _). rewrite E' in E2. injection E2 as <-. lia.
    - injection E2 as <-. lia. }
  apply bind_ok in H as (u & _ & H). destruct (q + op_len o >=? end_pos) eqn:E.
  - injection H as <-. constructor; [unfold short; cbn [snd]; lia|constructor].
  - apply bind_ok in H as (r' & E3 & H). destruct r' as [l'|]; [|discriminate H]. injection H as <-. constructor; [unfold short; cbn [snd]; lia|].
    apply (IH (q + op_len o) l' Hc H2); auto; try lia. destruct l as [|x l]; [lia|]. inversion H2 as [|? ? G1 _]; subst. pose proof (good_oal _ (proj1 G1)). lia.
Qed.
Lemma exact_slice_short m dict out l start len L r : zlen dict < 2 ^ 64 -> zlen out < 2 ^ 64 -> contiguous 0 l -> Forall (in_place dict out) l -> 1 <= len -> Forall (short L) l ->
  get_exact_slice m l start len = Ok (Some r) -> Forall (short L) r.
Proof.
  intros Hd Ho Hc Hp Hl HS H. unfold get_exact_slice in H. apply bind_ok in H as (i & Ei & H). destruct i as [i|]; [|discriminate H].
  destruct (find_controlling_spec l 0 start Hc (pls_good _ _ _ Hp)) as (i' & E' & Hi). rewrite Ei in E'. injection E' as <-. destruct Hi as (q & o & Hi & Hnth & Hq).
  rewrite (drop_nth l i (q, o) Hi Hnth) in H.
  assert (Hsplit : l = take i l ++ (q, o) :: drop (i + 1) l) by (rewrite <- (drop_nth l i (q, o) Hi Hnth); symmetry; apply take_drop).
  rewrite Hsplit in Hc, Hp, HS. apply contig_app in Hc as [_ Hc]. apply Forall_app in Hp as [_ Hp]. apply Forall_app in HS as [_ HS].
  pose proof Hc as [Eq _]. refine (exact_loop_short m dict out start (start + len) L Hd Ho ltac:(lia) _ _ r Hc Hp _ _ HS H); cbn [snd]; lia.
Qed.
Lemma slen_short l n : Forall (fun x => op_good (snd x)) l -> slen l = n -> Forall (short n) l.
Proof.
  intros Hg Hn. rewrite Forall_forall. intros x Hx. apply in_split in Hx as (l1 & l2 & ->). apply Forall_app in Hg as [G1 G2]. inversion G2 as [|? ? G3 G4]; subst. unfold short.
  rewrite slen_app, slen_cons. pose proof (slen_nonneg _ G1). pose proof (slen_nonneg _ G4). lia.
Qed.
Lemma short_ops L l : Forall (short L) l <-> Forall (fun o => op_len o <= L) (map snd l).
Proof. rewrite Forall_map. reflexivity. Qed.
Definition lits_short (L : Z) (ops : list op) : Prop := Forall (fun o => is_out_copy o = false -> op_len o <= L) ops.
Lemma deref_short m dict out L : zlen dict < 2 ^ 64 -> zlen out < 2 ^ 64 -> forall ext output r, Forall (in_place dict out) ext -> contiguous (slen output) ext ->
  contiguous 0 output -> Forall (in_place dict out) output -> no_out output -> Forall (short L) output -> lits_short L (map snd ext) ->
  deref_loop m ext output (slen output) = Ok r -> Forall (short L) r.
Proof.
  intros Hd Ho. induction ext as [|[q o] ext IH]; intros output r Hp Hc Hc0 Hpo Hno HS HL H; cbn [deref_loop] in H.
  - injection H as <-. exact HS.
  - (* one step, by the specification of the loop on the single operation *)
    destruct Hc as [-> Hc]. inversion Hp as [|? ? H1 H2]; subst. apply Forall_cons_iff in HL as [HL1 HL2]. cbn [snd] in HL1.
    destruct (deref_loop_spec m dict out Hd Ho [(slen output, o)] output ltac:(constructor; [exact H1|constructor]) ltac:(split; [reflexivity|exact I]) Hc0 Hpo Hno) as (r1 & E1 & C1 & P1 & N1 & L1 & _).
    cbn [deref_loop] in E1. apply bind_ok in H as (res & Er & H). rewrite Er in E1. cbn [bind] in E1. destruct (place res (slen output)) as [l pos] eqn:Ep. cbn [deref_loop] in E1. injection E1 as <-.
    assert (Hres : Forall (short L) res).
    { destruct o as [bs|b n|[|] a n]; try (injection Er as <-; constructor; [unfold short; cbn [snd]; apply HL1; reflexivity|constructor]).
      apply bind_ok in Er as (sl & Es & Er). destruct sl as [sl|]; [|discriminate Er]. injection Er as <-. destruct H1 as (Hg & _). pose proof (good_oal _ Hg) as [_ Hl]. cbn [snd op_len] in Hl.
      exact (exact_slice_short m dict out output a n L sl Hd Ho Hc0 Hpo ltac:(lia) HS Es). }
    assert (El : map snd l = map snd res) by (replace l with (fst (place res (slen output))) by (rewrite Ep; reflexivity); apply place_snd).
    assert (Hl : Forall (short L) l) by (rewrite short_ops, El, <- short_ops; exact Hres).
    assert (Hgr : Forall (fun x => op_good (snd x)) res).
    { apply Forall_app in P1 as [_ P1]. apply pls_good in P1. rewrite <- (Forall_map snd op_good) in *. rewrite <- El. exact P1. }
    pose proof (place_spec res (slen output) Hgr) as Eps. rewrite Ep in Eps. injection Eps as El2 Epos.
    assert (Esl : pos = slen (output ++ l)) by (rewrite slen_app, El2, slen_number; exact Epos).
    rewrite Esl in H. apply (IH (output ++ l) r); auto.
    + rewrite L1. unfold slen at 2. cbn [map ops_len fold_right snd]. rewrite Z.add_0_r. exact Hc.
    + apply Forall_app. split; [exact HS|exact Hl].
Qed.
Lemma expand_from : forall ins target cur pos x, In x (map snd (expand_loop target ins cur pos)) -> In x (map snd target) \/ exists i v, In (i, v) ins /\ In x (map snd v).
Proof.
  induction ins as [|[ip v] ins IH]; intros target cur pos x H; cbn [expand_loop] in H.
  - rewrite place_snd in H. left. exact H.
  - cbv zeta in H. destruct (place (take (ip - cur) target) pos) as [l1 p1] eqn:E1. destruct (place v p1) as [l2 p2] eqn:E2.
    assert (F1 : map snd l1 = map snd (take (ip - cur) target)) by (replace l1 with (fst (place (take (ip - cur) target) pos)) by (rewrite E1; reflexivity); apply place_snd).
    assert (F2 : map snd l2 = map snd v) by (replace l2 with (fst (place v p1)) by (rewrite E2; reflexivity); apply place_snd).
    rewrite !map_app, F1, F2 in H. apply in_app_or in H as [H|H]; [|apply in_app_or in H as [H|H]].
    + left. rewrite <- (take_drop (ip - cur) target), map_app. apply in_or_app. left. exact H.
    + right. exists ip, v. split; [left; reflexivity|exact H].
    + apply IH in H as [H|(i & v' & Hin & H)].
      * left. rewrite <- (take_drop (ip - cur) target), map_app. apply in_or_app. right. rewrite <- (take_drop 1 (drop (ip - cur) target)), map_app. apply in_or_app. right. exact H.
      * right. exists i, v'. split; [right; exact Hin|exact H].
Qed.
Lemma insert_sorted_in {A} (x y : Z * A) l : In y (insert_sorted x l) -> y = x \/ In y l.
Proof. induction l as [|z l IH]; cbn [insert_sorted]; [intros [<-|[]]; auto|]. destruct (fst x <=? fst z); cbn [In]; [intros [<-|H]; auto|]. intros [<-|H]; [right; left; reflexivity|]. destruct (IH H); auto. Qed.
Lemma sort_in {A} (y : Z * A) l : In y (sort_by_key l) -> In y l.
Proof. induction l as [|x l IH]; [intros []|]. intro H. unfold sort_by_key in H. cbn [fold_right] in H. apply insert_sorted_in in H as [->|H]; [left; reflexivity|right; apply IH; exact H]. Qed.
Lemma idx_in {A} (l : list A) i x : idx l i = Ok x -> In x l.
Proof. unfold idx. destruct (i <? 0); [discriminate|]. destruct (nth_error l (Z.to_nat i)) eqn:E; [|discriminate]. intro H. injection H as <-. eapply nth_error_In; exact E. Qed.
Lemma merge_loop_ins m T P : forall ix sh ix' ins, merge_loop m T P ix sh = Ok (ix', ins) -> forall i v, In (i, v) ins ->
  exists q s a n, In (q, Copy s a n) T /\ get_exact_slice m P a n = Ok (Some v).
Proof.
  induction ix as [|i0 ix IH]; intros sh ix' ins H i v Hin; cbn [merge_loop] in H; [injection H as <- <-; destruct Hin|].
  apply bind_ok in H as ([q o] & Ei & H). cbn [snd] in H. destruct o as [bs|b n|s a n]; try discriminate H. apply bind_ok in H as (u & _ & H). apply bind_ok in H as (r & Er & H). destruct r as [rs|]; [|discriminate H].
  apply bind_ok in H as (k & _ & H). apply bind_ok in H as ([ix2 ins2] & Em & H). injection H as <- <-. destruct Hin as [E|Hin].
  - injection E as <- <-. exists q, s, a, n. split; [exact (idx_in _ _ _ Ei)|exact Er].
  - exact (IH _ _ _ Em i v Hin).
Qed.
Lemma expand_short m src mid out T P ix sh ix' ins L : zlen src < 2 ^ 64 -> zlen mid < 2 ^ 64 -> contiguous 0 P -> Forall (in_place src mid) P -> Forall (in_place mid out) T -> no_out T ->
  Forall (short L) T -> merge_loop m T P ix sh = Ok (ix', ins) -> Forall (fun o => op_len o <= L) (map snd (expand_to T ins)).
Proof.
  intros Hs Hm Hc Hp HT Hno HS H. rewrite Forall_forall. intros x Hx. unfold expand_to in Hx. apply expand_from in Hx as [Hx|(i & v & Hin & Hx)].
  - rewrite short_ops, Forall_forall in HS. exact (HS x Hx).
  - apply sort_in in Hin. destruct (merge_loop_ins _ _ _ _ _ _ _ H i v Hin) as (q & s & a & n & Hq & Es).
    rewrite Forall_forall in HT, HS. pose proof (HT _ Hq) as (Hg & _ & _ & Hb). pose proof (HS _ Hq) as Hn. unfold short in Hn. cbn [fst snd op_len] in *. pose proof (good_oal _ Hg) as [_ Hl]. cbn [op_len] in Hl.
    assert (Ha : 0 <= a) by (destruct Hg as [[[Ha _] _] _]; lia).
    pose proof (exact_slice_spec m src mid P a n Hs Hm Hc Hp Ha ltac:(lia)) as HE. destruct (a + n <=? slen P); [|congruence]. destruct HE as (r & E' & _ & Pr & Lr & _). rewrite Es in E'. injection E' as <-.
    pose proof (slen_short v n (pls_good _ _ _ Pr) Lr) as HV. rewrite short_ops, Forall_forall in HV. specialize (HV x Hx). cbn beta in HV. lia.
Qed.
Definition merged_short (L : Z) (r : merged) : Prop := Forall (fun o => op_len o <= L) (summary_of r).
Lemma merge_short m cd g patch src mid out ops r L : zlen src < 2 ^ 63 -> zlen mid < 2 ^ 63 -> zlen out < 2 ^ 63 -> merger_for mid out g ->
  applies m cd patch src mid -> reads_as m cd patch ops -> Forall op_good ops -> merged_short L (Open g) -> merger_merge m cd g patch = Ok r -> merged_short L r.
Proof.
  intros Hs Hm Ho (C & P & N & LL & X) HA HR Hg HS H. destruct (applies_extract _ _ _ _ _ _ HA HR (good_ok _ Hg)) as [HE Hrun]. unfold merger_merge in H.
  apply bind_ok in H as (u & _ & H). rewrite HE in H. cbn [bind] in H. apply bind_ok in H as (pr & Epr & H). rewrite stats_fold in Epr by now apply good_ok. cbn [st_copy_bytes stats_new] in Epr. destruct (copy_bytes_zero _ Hg) as [Hb0 Hb1].
  assert (HP : contiguous 0 pr /\ Forall (in_place src mid) pr).
  { destruct (0 + 2 * bytes_of is_copy ops >? 0) eqn:E.
    - destruct (deref_spec m src ops mid ltac:(lia) ltac:(lia) Hg Hrun) as (r1 & E1 & C1 & P1 & _). rewrite Epr in E1. injection E1 as <-. auto.
    - injection Epr as <-. split; [apply number_contig|]. destruct (run_number src ops [] mid Hg Hrun) as [P1 _]. rewrite (@zlen_nil Z) in *. exact P1. }
  destruct HP as [C1 P1]. apply bind_ok in H as ([ix ins] & Em & H).
  assert (HF : Forall (fun o => op_len o <= L) (map snd (expand_to (mg_patch g) ins))).
  { refine (expand_short m src mid out (mg_patch g) pr _ _ ix ins L ltac:(lia) ltac:(lia) C1 P1 P N _ Em). apply short_ops. exact HS. }
  destruct (zlen ix =? 0); injection H as <-; exact HF.
Qed.
Lemma new_short m cd patch src out ops r L : zlen src < 2 ^ 63 -> zlen out < 2 ^ 63 -> applies m cd patch src out -> reads_as m cd patch ops -> Forall op_good ops -> lits_short L ops ->
  merger_new m cd patch = Ok r -> merged_short L r.
Proof.
  intros Hs Ho HA HR Hg HL H. destruct (applies_extract _ _ _ _ _ _ HA HR (good_ok _ Hg)) as [HE Hrun]. unfold merger_new in H. rewrite HE in H. cbn [bind] in H.
  rewrite stats_fold in H by now apply good_ok. cbn [st_copy_bytes stats_new] in H. destruct (copy_bytes_zero _ Hg) as [Hb0 Hb1]. unfold merged_short.
  destruct (0 + 2 * bytes_of is_copy ops =? 0) eqn:E.
  - injection H as <-. cbn [summary_of]. rewrite number_snd. assert (Hn : existsb is_copy ops = false) by (apply Hb1; lia). rewrite copy_split in Hn. apply orb_false_iff in Hn as [_ Hn].
    unfold lits_short in HL. rewrite Forall_forall in *. intros x Hx. apply (HL x Hx). destruct (is_out_copy x) eqn:Ex; [|reflexivity]. assert (existsb is_out_copy ops = true) by (apply existsb_exists; exists x; auto). congruence.
  - apply bind_ok in H as (t & Et & H). apply bind_ok in H as (u & _ & H). injection H as <-. cbn [summary_of]. unfold merger_finish. cbn [mg_patch]. apply short_ops.
    destruct (run_number src ops [] out Hg Hrun) as [Hp _]. rewrite (@zlen_nil Z) in *. unfold deref_copy_o in Et.
    apply (deref_short m src out L ltac:(lia) ltac:(lia) (number 0 ops) [] t); try (now constructor); [exact Hp|apply number_contig|rewrite number_snd; exact HL|exact Et].
Qed.
(** C98. Merging splits operations and never joins them: when the newest patch's operations, copies from the output aside, produce at most [L] bytes each,
    so does every operation of the merged patch, and there are at least |target| / L of them. *)
Theorem C98_never_joined : forall m cd newest older src out r ops L, chain m cd src (newest :: older) out -> zlen src < 2 ^ 63 -> new_ok m cd newest ->
  reads_as m cd newest ops -> Forall (fun o => is_out_copy o = false -> op_len o <= L) ops ->
  merge_from m cd newest older = Ok r ->
  Forall (fun o => op_len o <= L) (summary_of r) /\ zlen out <= L * zlen (summary_of r).
Proof.
  intros m cd newest older src out r ops L Hch Hs Hn HR HL E. destruct (C49_merge_chain _ _ _ _ _ _ Hch Hs Hn) as (r' & E' & Hg' & Hr' & _). rewrite E in E'. injection E' as <-.
  assert (HM : merged_short L r).
  { inversion Hch as [|src0 mid out0 p older0 Hold Hgp]; subst. destruct Hgp as (HA & Hmz & Hoz & ops' & HR' & Hg). pose proof (reads_as_det _ _ _ _ _ HR HR') as <-.
    assert (HX : merge_from m cd newest older = Ok r) by exact E. unfold merge_from in HX. apply bind_ok in HX as (r1 & E1 & HX).
    assert (Hm1 : m = Release \/ existsb is_copy ops = false \/ existsb is_dict_copy ops = true).
    { destruct Hn as [->|(ops2 & HR2 & Hn)]; [now left|right]. now rewrite (reads_as_det _ _ _ _ _ HR HR2). }
    destruct (merger_new_spec m cd newest mid out ops Hmz Hoz HA HR Hg Hm1) as (r1' & E1' & HF1). rewrite E1 in E1'. injection E1' as <-.
    pose proof (new_short m cd newest mid out ops r1 L Hmz Hoz HA HR Hg HL E1) as HS1. destruct r1 as [g|so]; [|injection HX as <-; exact HS1].
    clear - HX HF1 HS1 Hold Hs Hoz. revert src mid g Hold Hs HF1 HS1 HX. induction older as [|p older IH]; intros src mid g Hold Hs HF HS HX; cbn [merge_more] in HX; [injection HX as <-; exact HS|].
    inversion Hold as [|src0 mid0 out0 p0 older0 Hold' Hgp]; subst. destruct Hgp as (HA & Hmz & Hmo & ops' & HR' & Hg). apply bind_ok in HX as (r2 & E2 & HX).
    destruct (merger_merge_spec m cd g p mid0 mid out ops' Hmz Hmo Hoz HF HA HR' Hg) as (r2' & E2' & HF2 & _). rewrite E2 in E2'. injection E2' as <-.
    pose proof (merge_short m cd g p mid0 mid out ops' r2 L Hmz Hmo Hoz HF HA HR' Hg HS E2) as HS2. destruct r2 as [g2|so]; [|injection HX as <-; exact HS2].
    exact (IH src mid0 g2 Hold' Hs HF2 HS2 HX). }
  split; [exact HM|]. pose proof (run_ops_len _ _ _ _ (ops_ok_nonneg _ (good_ok _ Hg')) Hr') as Hz. rewrite (@zlen_nil Z) in Hz. cbn [app] in Hz. replace (zlen out) with (ops_len (summary_of r)) by lia.
  clear - HM. unfold merged_short in HM. induction HM as [|x l Hx _ IH]; [cbn; lia|]. rewrite ops_len_cons, zlen_cons. lia.
Qed.

(** ** Blow-up *)
(** Copies of the whole output so far, if it is [2 ^ i] bytes long: [k] doublings. *)
Fixpoint doubles (i : Z) (k : nat) : list op := match k with O => [] | S k => Copy Output 0 (2 ^ i) :: doubles (i + 1) k end.
(** One byte copied from the source, 16 copies from the output that each double it, and [n] copies of the first 65535 bytes. *)
Definition doubling (n : Z) : list op := Copy Dict 0 1 :: doubles 0 16 ++ rep (Copy Output 0 65535) n.
Lemma copy_all_same d c k j : 0 <= j <= k -> op_bytes d (rep c k) (Copy Output 0 j) = Some (rep c j).
Proof.
  intro H. cbn [op_bytes]. replace (in_range (rep c k) 0 j) with true; [|symmetry; unfold in_range; rewrite zlen_rep; lia]. rewrite sub_rep by lia. reflexivity.
Qed.
Lemma run_doubling_tail d c j : forall n k, 0 <= j <= k -> run_ops d (rep c k) (repeat (Copy Output 0 j) n) = Some (rep c (k + Z.of_nat n * j)).
Proof.
  induction n as [|n IH]; intros k H; cbn [repeat run_ops]; [f_equal; f_equal; lia|]. rewrite (copy_all_same d c k j H). rewrite rep_app by lia. rewrite IH by lia. f_equal. f_equal. lia.
Qed.
Lemma run_doubling_rep d c j n k : 0 <= n -> 0 <= j <= k -> run_ops d (rep c k) (rep (Copy Output 0 j) n) = Some (rep c (k + n * j)).
Proof. intros Hn H. unfold rep at 2. rewrite run_doubling_tail by exact H. rewrite Z2Nat.id by lia. reflexivity. Qed.
Lemma run_doubles d c : forall k i, 0 <= i -> run_ops d (rep c (2 ^ i)) (doubles i k) = Some (rep c (2 ^ (i + Z.of_nat k))).
Proof.
  induction k as [|k IH]; intros i Hi; cbn [doubles run_ops]; [f_equal; f_equal; f_equal; lia|]. assert (0 < 2 ^ i) by (apply Z.pow_pos_nonneg; lia). rewrite (copy_all_same d c (2 ^ i) (2 ^ i)) by lia. rewrite rep_app by lia.
  replace (2 ^ i + 2 ^ i) with (2 ^ (i + 1)) by (rewrite Z.pow_add_r, Z.pow_1_r by lia; lia). rewrite IH by lia. f_equal. f_equal. f_equal. lia.
Qed.
Lemma run_doubling_any c n i k : 0 <= n -> 0 <= i -> 65535 <= 2 ^ (i + Z.of_nat k) ->
  run_ops [c] (rep c (2 ^ i)) (doubles i k ++ rep (Copy Output 0 65535) n) = Some (rep c (2 ^ (i + Z.of_nat k) + 65535 * n)).
Proof. intros Hn Hi Hk. rewrite run_ops_app, run_doubles by exact Hi. rewrite (run_doubling_rep [c] c 65535 n (2 ^ (i + Z.of_nat k)) Hn (conj (Zle_bool_imp_le 0 65535 eq_refl) Hk)). f_equal. f_equal. lia. Qed.
Lemma run_one c r : run_ops [c] [] (Copy Dict 0 1 :: r) = run_ops [c] (rep c (2 ^ 0)) r. Proof. reflexivity. Qed.
Lemma run_doubling c n : 0 <= n -> run_ops [c] [] (doubling n) = Some (rep c (65536 + 65535 * n)).
Proof.
  intro Hn. unfold doubling. rewrite run_one.
  rewrite (run_doubling_any c n 0 16 Hn ltac:(lia) ltac:(lia)). assert (E : 2 ^ (0 + Z.of_nat 16) = 65536) by reflexivity. rewrite E. reflexivity.
Qed.
Lemma doubles_props : forall k i, 0 <= i -> i + Z.of_nat k <= 16 -> Forall op_good (doubles i k) /\ zlen (doubles i k) = Z.of_nat k /\ adds_len (doubles i k) = 0 /\ Forall (fun o => is_out_copy o = false -> op_len o <= 1) (doubles i k).
Proof.
  induction k as [|k IH]; intros i Hi Hk; cbn [doubles]; [repeat split; constructor|]. destruct (IH (i + 1) ltac:(lia) ltac:(lia)) as (G & L & A & S).
  assert (1 <= 2 ^ i <= 2 ^ 15) by (split; [change 1 with (2 ^ 0); apply Z.pow_le_mono_r; lia|apply Z.pow_le_mono_r; lia]).
  split; [constructor; [|exact G]; repeat split; cbn; lia|]. split; [rewrite zlen_cons, L; lia|]. split; [rewrite adds_len_cons, A; reflexivity|]. constructor; [discriminate|exact S].
Qed.
Lemma doubling_props n : 0 <= n -> Forall op_good (doubling n) /\ zlen (doubling n) = 17 + n /\ adds_len (doubling n) = 0 /\ Forall (fun o => is_out_copy o = false -> op_len o <= 1) (doubling n).
Proof.
  intro Hn. destruct (doubles_props 16 0 ltac:(lia) ltac:(lia)) as (G & L & A & S). unfold doubling.
  assert (A2 : forall k, adds_len (repeat (Copy Output 0 65535) k) = 0) by (induction k as [|k IH]; [reflexivity|cbn [repeat]; rewrite adds_len_cons, IH; reflexivity]).
  split; [constructor; [repeat split; cbn; lia|apply Forall_app; split; [exact G|apply Forall_rep; repeat split; cbn; lia]]|].
  split; [rewrite zlen_cons, zlen_app, L, zlen_rep; lia|]. split; [rewrite adds_len_cons, adds_len_app, A; unfold rep; rewrite A2; reflexivity|].
  constructor; [intros _; cbn; lia|]. apply Forall_app. split; [exact S|apply Forall_rep; discriminate].
Qed.
(** C98, a finding. Merging replaces a copy from the output by the operations that made the copied bytes, so a merged patch, even of a single patch, can be
    thousands of times as large as what it was made from: for every [n] there is a patch of at most 14 n + 300 bytes such that merging it, alone or onto any
    older patches, gives a patch of 65535 n + 65536 operations, which takes at least as many bytes. *)
Theorem C98_blowup : forall m cd c n, is_byte c -> 0 <= n < 2 ^ 40 ->
  exists p, zlen p <= 14 * n + 300 /\ good_patch m cd p [c] (rep c (65536 + 65535 * n)) /\ new_ok m cd p /\
  forall src older, chain m cd src older [c] -> zlen src < 2 ^ 63 ->
    exists r, merge_from m cd p older = Ok r /\ zlen (summary_of r) = 65536 + 65535 * n /\
      (exists b, summary_write m cd (summary_of r) None None None = (b, Ok tt)) /\
      forall seg f b, summary_write m cd (summary_of r) seg f None = (b, Ok tt) -> 65536 + 65535 * n < zlen b.
Proof.
  intros m cd c n Hc Hn. set (out := rep c (65536 + 65535 * n)). assert (Hz : zlen out = 65536 + 65535 * n) by (unfold out; rewrite zlen_rep; lia).
  pose proof (run_doubling c n ltac:(lia)) as Hr. fold out in Hr. destruct (doubling_props n ltac:(lia)) as (Hg & Dl & Da & HL). assert (Hs1 : zlen [c] < 2 ^ 63) by (rewrite zlen_cons, (@zlen_nil Z); lia).
  destruct (summary_write_ok m cd (doubling n) [c] out None None None I Hg Hr ltac:(lia) Hs1) as (p & Ep). exists p.
  destruct (summary_sized m m cd (doubling n) [c] out None None p Hg Hr ltac:(lia) Hs1 Ep) as (secs & _ & _ & _ & Hb & Hsec).
  rewrite Da, Dl in Hb. unfold summary_section, clamp_section, max_inst_size, max_win_size in Hsec. change (Z.min (Z.max 16777215 65535) 16777215) with 16777215 in Hsec.
  assert (Hdiv : 2 * zlen out / 16777215 <= 1 + n / 64).
  { rewrite Hz. apply Z.lt_succ_r. apply Z.div_lt_upper_bound; [lia|]. pose proof (Z.div_mod n 64 ltac:(lia)). pose proof (Z.mod_pos_bound n 64 ltac:(lia)). pose proof (Z.div_pos n 64 ltac:(lia) ltac:(lia)). lia. }
  assert (Hd2 : 64 * (n / 64) <= n) by (apply Z.mul_div_le; lia).
  split; [clear - Hb Hsec Hdiv Hd2; lia|]. pose proof (summary_write_reads m m cd (doubling n) [c] out None None None p I Hg Hr ltac:(lia) Hs1 Ep) as HR.
  assert (HA : applies m cd p [c] out).
  { destruct (summary_write_apply m m cd _ [c] out None None None p [] [] 0 I Hg Hr ltac:(lia) Hs1 Ep) as (p' & E'). exists p'. rewrite app_nil_r in E'. rewrite E'. unfold over, drop. rewrite skipn_nil, app_nil_r. reflexivity. }
  assert (HG : good_patch m cd p [c] out) by (split; [exact HA|split; [exact Hs1|split; [lia|exists (doubling n); split; [exact HR|exact Hg]]]]).
  assert (HN : new_ok m cd p) by (right; exists (doubling n); split; [exact HR|right; reflexivity]).
  split; [exact HG|]. split; [exact HN|]. intros src older Hold Hs. assert (Hch : chain m cd src (p :: older) out) by (econstructor; [exact Hold|exact HG]).
  destruct (C49_merge_chain _ _ _ _ _ _ Hch Hs HN) as (r & E & Hgr & Hrr & _). exists r. split; [exact E|].
  destruct (C98_never_joined m cd p older src out r (doubling n) 1 Hch Hs HN HR HL E) as [_ Hlow].
  pose proof (good_zlen _ Hgr) as Hup. pose proof (run_ops_len _ _ _ _ (ops_ok_nonneg _ (good_ok _ Hgr)) Hrr) as L. rewrite (@zlen_nil Z) in L. cbn [app] in L.
  assert (Hcount : zlen (summary_of r) = 65536 + 65535 * n) by lia. split; [exact Hcount|]. split.
  - exact (summary_write_ok m cd (summary_of r) src out None None None I Hgr Hrr ltac:(lia) Hs).
  - intros seg f b Eb. destruct (summary_sized m m cd (summary_of r) src out seg f b Hgr Hrr ltac:(lia) Hs Eb) as (s2 & _ & _ & _ & Hb2 & Hs2). assert (0 <= adds_len (summary_of r)) by (apply adds_len_bounds; exact (good_ok _ Hgr)). clear - Hb2 Hs2 Hcount H. lia.
Qed.
(** The chain of C49_example, merged into 7 operations and written in 20 bytes for a target of 75; the newest patch copies up to 50 bytes. *)
Example C98_example : forall m, chain m toy v1 [p23; p12] v3 /\ zlen v1 < 2 ^ 63 /\ new_ok m toy p23 /\
  exists r b ops, merge_from m toy p23 [p12] = Ok r /\ summary_write m toy (summary_of r) None None None = (b, Ok tt) /\ reads_as m toy p23 ops /\
    Forall (fun o => is_out_copy o = false -> op_len o <= 50) ops /\ map op_len (summary_of r) = [1; 15; 2; 30; 3; 5; 19] /\ zlen b = 20 /\ zlen v3 = 75.
Proof.
  intro m. destruct (C49_example m) as (H1 & H2 & H3 & _). split; [exact H1|]. split; [exact H2|]. split; [exact H3|]. do 3 eexists.
  split; [destruct m; vm_compute; reflexivity|]. split; [destruct m; vm_compute; reflexivity|].
  split; [do 2 eexists; split; [apply pr_last; [destruct m; vm_compute; reflexivity|reflexivity]|reflexivity]|].
  split; [cbn [map concat fst app]; repeat (constructor; [intros _; vm_compute; discriminate|]); constructor|]. split; [vm_compute; reflexivity|]. split; vm_compute; reflexivity.
Qed.
(** In small: 7 operations in 17 bytes become 64 operations in 131. *)
Example C98_small_blowup : let p := fst (summary_write Debug toy (Copy Dict 0 1 :: doubles 0 6) None None None) in zlen p = 17 /\
  exists r, merge_from Debug toy p [] = Ok r /\ zlen (summary_of r) = 64 /\ zlen (fst (summary_write Debug toy (summary_of r) None None None)) = 131.
Proof. cbv zeta. split; [vm_compute; reflexivity|]. eexists. split; [vm_compute; reflexivity|]. split; vm_compute; reflexivity. Qed.

Print Assumptions C98_merged_size.
Print Assumptions C98_never_joined.
Print Assumptions C98_blowup.
