(** Property C113: merging is substitution of operations, and the order of merging does not matter. *)
From Verif Require Import Base Spec MCommon MWriter MReader MDecoder MTrgtMatcher MSrcMatcher MEncInner MEncode MMerger MTranscoder SpecApi SpecMerge SpecGraft PBase PStream PSection PDecoder PPatch PEncode
  PMerge PMerge2 PMerge3 PMerge4 PGraft TEncode TMerge TPipe.
Ltac Zify.zify_post_hook ::= idtac.
Arguments Z.add : simpl never.
Arguments Z.sub : simpl never.
Arguments Z.mul : simpl never.
Arguments Z.pow : simpl never.
Arguments Z.min : simpl never.

(** Non-empty operations that make [c] bytes and copy only from [a] bytes of dictionary. *)
Definition lnk (a : Z) (ops : list op) (c : Z) : Prop := nonempty ops /\ fits a ops /\ ops_len ops = c.
Lemma slice_fits N : forall ops a n, nonempty ops -> fits N ops -> 0 <= a -> 0 <= n -> a + n <= ops_len ops -> fits N (slice ops a n).
Proof.
  induction ops as [|o ops IH]; intros a n Hn Hf Ha H0 Hl; [exact Hf|]. inversion Hn as [|? ? H1 H2]; subst. pose proof (nonempty_len _ H2). apply fits_cons in Hf as [Hf1 Hf2]. rewrite ops_len_cons in Hl. cbn [slice].
  destruct (n <=? 0) eqn:E; [intros ? ? []|]. destruct (op_len o <=? a) eqn:E2; [apply IH; auto; lia|]. intros s k [Hin|Hin].
  - destruct o as [|?|[] s0 l0]; try discriminate. destruct (Hf1 s0 l0 (or_introl eq_refl)). cbn [cut_op op_len] in *. injection Hin as <- <-. lia.
  - eapply (IH 0 (n - Z.min n (op_len o - a))); auto; lia.
Qed.
Lemma graft_fits N older : nonempty older -> fits N older -> forall ops, fits (ops_len older) ops -> Forall (fun o => 1 <= op_len o) ops -> fits N (graft ops older).
Proof.
  intros Hn Ho ops Hf Hne s k Hin. unfold graft in Hin. apply in_flat_map in Hin as (o & Ho1 & Hin). rewrite Forall_forall in Hne. specialize (Hne o Ho1).
  destruct o as [bs|x n|[] a n]; try (destruct Hin as [E|[]]; discriminate). destruct (Hf a n Ho1). cbn [op_len] in Hne. exact (slice_fits N older a n Hn Ho ltac:(lia) ltac:(lia) ltac:(lia) s k Hin).
Qed.
Lemma lnk_graft a b c x y : lnk a y b -> lnk b x c -> lnk a (graft x y) c.
Proof.
  intros (N1 & F1 & L1) (N2 & F2 & L2). rewrite <- L1 in F2. destruct (graft_spec x y N1 N2 F2) as [L N]. split; [exact N|]. split; [|lia]. now apply graft_fits.
Qed.
(** A chain of operations, newest first. *)
Fixpoint lchain (a : Z) (l : list (list op)) (c : Z) : Prop := match l with [] => a = c | x :: r => exists b, lchain a r b /\ lnk b x c end.
Definition foldg (x : list op) (l : list (list op)) : list op := fold_left graft l x.
Lemma foldg_lnk : forall l a b c x, lchain a l b -> lnk b x c -> lnk a (foldg x l) c.
Proof.
  induction l as [|y l IH]; intros a b c x Hl Hx; cbn [lchain] in Hl; [now subst|]. destruct Hl as (b' & Hl & Hy). unfold foldg. cbn [fold_left]. apply (IH a b' c _ Hl). eapply lnk_graft; eassumption.
Qed.
Lemma foldg_assoc : forall l a b c d x y, lchain a l b -> lnk b y c -> lnk c x d -> foldg (graft x y) l = graft x (foldg y l).
Proof.
  induction l as [|z l IH]; intros a b c d x y Hl Hy Hx; [reflexivity|]. destruct Hl as (b' & Hl & Hz). unfold foldg in *. cbn [fold_left].
  assert (E : graft (graft x y) z = graft x (graft y z)).
  { destruct Hx as (X1 & X2 & X3), Hy as (Y1 & Y2 & Y3), Hz as (Z1 & Z2 & Z3). apply graft_assoc; auto; [now rewrite Y3|now rewrite Z3]. }
  rewrite E. eapply IH; [exact Hl|eapply lnk_graft; eassumption|exact Hx].
Qed.
Lemma lchain_app : forall l1 l2 a b c, lchain a l2 b -> lchain b l1 c -> lchain a (l1 ++ l2) c.
Proof. induction l1 as [|x l1 IH]; intros l2 a b c H2 H1; cbn [app lchain] in *; [now subst|]. destruct H1 as (b' & H1 & Hx). exists b'. split; [eapply IH; eassumption|exact Hx]. Qed.
Lemma merged_foldg n l : merged_ops (n :: l) = foldg (flatten n) (map flatten l).
Proof. unfold merged_ops, foldg. generalize (flatten n). induction l as [|p l IH]; intro x; [reflexivity|]. cbn [map fold_left]. apply IH. Qed.
Lemma merged_lnk : forall l a c, l <> [] -> lchain a (map flatten l) c -> lnk a (merged_ops l) c.
Proof. intros [|n l] a c Hne H; [congruence|]. cbn [map lchain] in H. destruct H as (b & H & Hn). rewrite merged_foldg. eapply foldg_lnk; eassumption. Qed.
(** Merging the operations of two successive parts of a chain. *)
Lemma merged_app l1 l2 a b c : l1 <> [] -> l2 <> [] -> lchain a (map flatten l2) b -> lchain b (map flatten l1) c -> merged_ops (l1 ++ l2) = graft (merged_ops l1) (merged_ops l2).
Proof.
  intros H1 H2 C2 C1. destruct l1 as [|n l1]; [congruence|]. destruct l2 as [|n2 l2]; [congruence|]. cbn [app]. rewrite !merged_foldg, map_app. cbn [map lchain] in C1, C2. destruct C1 as (b1 & C1 & Hn), C2 as (b2 & C2 & Hn2).
  unfold foldg at 1. rewrite fold_left_app. cbn [map fold_left]. fold (foldg (flatten n) (map flatten l1)). fold (foldg (graft (foldg (flatten n) (map flatten l1)) (flatten n2)) (map flatten l2)).
  eapply foldg_assoc; [exact C2|exact Hn2|eapply foldg_lnk; eassumption].
Qed.

(** ** Patches *)
Lemma flatten_lnk src out ops : zlen src < 2 ^ 63 -> zlen out < 2 ^ 63 -> Forall op_good ops -> run_ops src [] ops = Some out ->
  lnk (zlen src) (flatten ops) (zlen out) /\ Forall op_good (flatten ops) /\ run_ops src [] (flatten ops) = Some out /\ existsb is_out_copy (flatten ops) = false.
Proof.
  intros Hs Ho Hg Hr. destruct (deref_flat Release src ops out ltac:(lia) ltac:(lia) Hg Hr) as (r & _ & C & P & N & L & D). rewrite <- D. assert (G := pls_ops_good _ _ _ P). split; [split; [now apply good_nonempty|split; [|exact L]]|].
  - intros a n Hin. apply in_map_iff in Hin as ([q o] & E & Hin). cbn [snd] in E. subst o. rewrite Forall_forall in P. destruct (P _ Hin) as (Hgo & _ & _ & Hb). cbn [fst snd op_bytes op_len] in *.
    destruct (good_oal _ Hgo) as [_ Hl]. cbn [op_len] in Hl. destruct (in_range src a n) eqn:E; [|discriminate]. apply in_range_iff in E; lia.
  - split; [exact G|]. split; [now apply pl_run0|now apply no_out_ops].
Qed.
Lemma merge_more_graft m cd : forall older src mid, chain m cd src older mid -> forall out g r oops, zlen src < 2 ^ 63 -> zlen out < 2 ^ 63 -> merger_for mid out g ->
  Forall2 (reads_as m cd) older oops -> merge_more m cd g older = Ok r -> summary_of r = foldg (merger_finish g) (map flatten oops).
Proof.
  induction older as [|p older IH]; intros src mid Hch out g r oops Hs Ho Hg HF H; inversion HF; subst; cbn [merge_more map] in *; [injection H as <-; reflexivity|].
  inversion Hch; subst. match goal with H : good_patch _ _ _ _ _ |- _ => destruct H as (HA & Hsz & Hmz & ops & HR & Hgo) end.
  match goal with H : reads_as m cd p ?y |- _ => pose proof (reads_as_det _ _ _ _ _ HR H) as <- end.
  apply bind_ok in H as (r1 & E1 & H). pose proof (merger_merge_graft m cd g p _ mid out ops r1 Hsz Hmz Hg HA HR Hgo E1) as EG.
  destruct (merger_merge_spec m cd g p _ mid out ops Hsz Hmz Ho Hg HA HR Hgo) as (r1' & E1' & Hr1 & _). rewrite E1 in E1'. injection E1' as <-. unfold foldg in *. cbn [fold_left]. destruct r1 as [g'|ops'].
  - cbn [summary_of merged_for] in EG, Hr1. rewrite <- EG. eapply IH; [eassumption| | |exact Hr1|eassumption|exact H]; auto.
  - injection H as <-. cbn [summary_of] in *. rewrite <- EG. destruct Hr1 as (_ & Hn & _). rewrite copy_split in Hn. apply orb_false_iff in Hn as [Hn _]. clear - Hn. induction l' as [|y l' IH]; [reflexivity|]. cbn [map fold_left]. now rewrite graft_none.
Qed.
Lemma merge_from_graft m cd newest older src out r nops oops : chain m cd src (newest :: older) out -> zlen src < 2 ^ 63 -> merge_from m cd newest older = Ok r ->
  reads_as m cd newest nops -> Forall2 (reads_as m cd) older oops -> summary_of r = merged_ops (nops :: oops).
Proof.
  intros Hch Hs H HR HF. inversion Hch; subst. match goal with H : good_patch _ _ _ _ _ |- _ => destruct H as (HA & Hmz & Hoz & ops & HR' & Hg) end. pose proof (reads_as_det _ _ _ _ _ HR HR') as ->.
  unfold merge_from in H. apply bind_ok in H as (r1 & E1 & H). pose proof (merger_new_graft m cd newest _ out ops r1 Hmz Hoz HA HR' Hg E1) as EG. rewrite merged_foldg, <- EG.
  assert (HN := merge_ok_new m cd newest older r). destruct r1 as [g|so].
  - assert (Hm1 : merger_for mid out g).
    { destruct (merger_new_spec m cd newest mid out ops Hmz Hoz HA HR' Hg) as (r' & E' & Hr').
      - destruct (HN mid out) as [->|(o2 & HR2 & H2)].
        + split; [exact HA|]. split; [exact Hmz|]. split; [exact Hoz|]. exists ops. auto.
        + unfold merge_from. rewrite E1. exact H.
        + now left.
        + right. now rewrite (reads_as_det _ _ _ _ _ HR' HR2).
      - rewrite E1 in E'. injection E' as <-. exact Hr'. }
    eapply merge_more_graft; eassumption.
  - injection H as <-. cbn [summary_of] in *. unfold merger_new in E1. destruct (applies_extract _ _ _ _ _ _ HA HR' (good_ok _ Hg)) as [HE Hrun]. rewrite HE in E1. cbn [bind] in E1.
    rewrite stats_fold in E1 by now apply good_ok. cbn [st_copy_bytes stats_new] in E1. destruct (copy_bytes_zero _ Hg) as [Hb0 Hb1]. destruct (0 + 2 * bytes_of is_copy ops =? 0) eqn:E.
    + injection E1 as E1. rewrite number_snd in E1. assert (Hn : existsb is_copy ops = false) by (apply Hb1; lia). rewrite copy_split in Hn. apply orb_false_iff in Hn as [Hn _]. rewrite E1 in Hn. clear - Hn. unfold foldg. induction oops as [|y l IH]; [reflexivity|]. cbn [map fold_left]. now rewrite graft_none.
    + apply bind_ok in E1 as (t & _ & E1). apply bind_ok in E1 as ([] & _ & E1). discriminate.
Qed.

(** ** What the two operations on operations mean *)
Lemma no_out_bytes src : forall y acc z, existsb is_out_copy y = false -> run_ops src acc y = Some z -> exists mid, z = acc ++ mid /\ forall acc', run_ops src acc' y = Some (acc' ++ mid).
Proof.
  induction y as [|o y IH]; intros acc z Hn H; cbn [run_ops existsb] in *; [injection H as <-; exists []; split; [now rewrite app_nil_r|intro; now rewrite app_nil_r]|].
  apply orb_false_iff in Hn as [N1 N2]. assert (Eb : forall acc', op_bytes src acc' o = op_bytes src acc o) by (intro; destruct o as [|?|[]]; try reflexivity; discriminate).
  destruct (op_bytes src acc o) as [b|] eqn:E; [|discriminate]. destruct (IH _ _ N2 H) as (mid & -> & HM). exists (b ++ mid). split; [now rewrite app_assoc|]. intro acc'. rewrite Eb, HM. now rewrite app_assoc.
Qed.
Lemma cut_bytes src acc o b i k : op_good o -> is_out_copy o = false -> op_bytes src acc o = Some b -> 0 <= i -> 1 <= k -> i + k <= op_len o -> forall acc', op_bytes src acc' (cut_op o i k) = Some (sub b i k) /\ zlen b = op_len o.
Proof.
  intros Hg Hn Hb Hi Hk Hl acc'. pose proof (good_oal o Hg) as [_ HL]. destruct o as [bs|x n|[] a n]; try discriminate; cbn [op_bytes cut_op op_len] in *.
  - injection Hb as <-. auto.
  - injection Hb as <-. rewrite zlen_rep by lia. split; [|lia]. f_equal. rewrite sub_rep by lia. reflexivity.
  - destruct (in_range src a n) eqn:E; [|discriminate]. injection Hb as <-. apply in_range_iff in E; [|lia]. rewrite zlen_sub by lia. split; [|reflexivity].
    replace (in_range src (a + i) k) with true by (symmetry; apply in_range_iff; lia). f_equal. now rewrite sub_sub by lia.
Qed.
Lemma slice_runs src : forall y mid a n, Forall op_good y -> existsb is_out_copy y = false -> (forall acc, run_ops src acc y = Some (acc ++ mid)) -> 0 <= a -> 0 <= n -> a + n <= zlen mid ->
  forall acc, run_ops src acc (slice y a n) = Some (acc ++ sub mid a n).
Proof.
  induction y as [|o y IH]; intros mid a n Hg Hn HR Ha H0 Hl acc.
  - pose proof (HR []) as E. cbn [run_ops app] in E. injection E as <-. cbn [slice run_ops]. unfold sub, take, drop. now rewrite skipn_nil, firstn_nil, app_nil_r.
  - inversion Hg as [|? ? G1 G2]; subst. cbn [existsb] in Hn. apply orb_false_iff in Hn as [N1 N2]. pose proof (good_oal o G1) as [_ HL].
    pose proof (HR []) as E. cbn [run_ops] in E. destruct (op_bytes src [] o) as [b|] eqn:Eb; [|discriminate]. destruct (no_out_bytes src y _ _ N2 E) as (mid' & Em & HM). cbn [app] in Em. subst mid.
    destruct (cut_bytes src [] o b 0 1 G1 N1 Eb ltac:(lia) ltac:(lia) ltac:(lia) []) as [_ Lb]. rewrite zlen_app in Hl. pose proof (zlen_nonneg mid').
    cbn [slice]. destruct (n <=? 0) eqn:E0; [cbn [run_ops]; unfold sub; rewrite take_0 by lia; now rewrite app_nil_r|]. destruct (op_len o <=? a) eqn:E1.
    + rewrite (IH mid') by (auto; lia). f_equal. f_equal. rewrite sub_app_r by lia. now rewrite Lb.
    + set (k := Z.min n (op_len o - a)). assert (Hk : 1 <= k /\ k <= n /\ k <= op_len o - a) by lia. cbn [run_ops]. destruct (cut_bytes src [] o b a k G1 N1 Eb ltac:(lia) ltac:(lia) ltac:(lia) acc) as [Ec _]. rewrite Ec.
      rewrite (IH mid') by (auto; lia). f_equal. rewrite <- app_assoc. f_equal. destruct (a + n <=? op_len o) eqn:E2.
      * replace k with n by lia. rewrite sub_app_l by lia. unfold sub at 2. rewrite take_0 by lia. now rewrite app_nil_r.
      * replace k with (zlen b - a) by lia. rewrite (sub_split (b ++ mid') a n (zlen b - a)) by lia. rewrite sub_app_l by lia. f_equal. rewrite sub_app_r by lia. f_equal; lia.
Qed.
(** Flattening changes neither the output nor its length and leaves no copies from the output. *)
Theorem C113_flatten_means : forall src out ops, zlen src < 2 ^ 63 -> zlen out < 2 ^ 63 -> Forall op_good ops -> run_ops src [] ops = Some out ->
  run_ops src [] (flatten ops) = Some out /\ existsb is_out_copy (flatten ops) = false /\ Forall op_good (flatten ops).
Proof. intros src out ops Hs Ho Hg Hr. destruct (flatten_lnk src out ops Hs Ho Hg Hr) as (_ & H1 & H2 & H3). auto. Qed.
(** Grafting composes: if [x] makes [out] from [mid] and [y] makes [mid] from [src], without copies from the output, then [graft x y] makes [out] from [src]. *)
Theorem C113_graft_means : forall src mid out x y, Forall op_good x -> Forall op_good y -> existsb is_out_copy x = false -> existsb is_out_copy y = false ->
  run_ops src [] y = Some mid -> run_ops mid [] x = Some out -> run_ops src [] (graft x y) = Some out.
Proof.
  intros src mid out x y Hx Hy Nx Ny Ry. destruct (no_out_bytes src y [] mid Ny Ry) as (mid' & Em & HM). cbn [app] in Em. subst mid'. generalize (@nil Z) as acc. revert out.
  induction x as [|o x IH]; intros out acc H; [exact H|]. inversion Hx as [|? ? G1 G2]; subst. cbn [existsb] in Nx. apply orb_false_iff in Nx as [N1 N2]. pose proof (good_oal o G1) as [_ HL].
  rewrite graft_cons, run_ops_app. cbn [run_ops] in H. destruct (op_bytes mid acc o) as [b|] eqn:Eb; [|discriminate].
  assert (E : run_ops src acc (graft [o] y) = Some (acc ++ b)); [|rewrite E; now apply IH].
  unfold graft. cbn [flat_map]. rewrite app_nil_r. destruct o as [bs|z n|[] a n]; try discriminate; cbn [op_bytes op_len] in *; try (cbn [run_ops op_bytes]; now injection Eb as <-).
  destruct (in_range mid a n) eqn:E; [|discriminate]. injection Eb as <-. apply in_range_iff in E; [|lia]. apply slice_runs; auto; lia.
Qed.
(** Grafting is associative, where the copies fit. *)
Theorem C113_graft_associative : forall a b c, Forall op_good a -> Forall op_good b -> Forall op_good c -> (forall s k, In (Copy Dict s k) a -> 0 <= s /\ s + k <= ops_len b) ->
  (forall s k, In (Copy Dict s k) b -> 0 <= s /\ s + k <= ops_len c) -> graft (graft a b) c = graft a (graft b c).
Proof. intros a b c Ha Hb Hc H1 H2. apply graft_assoc; auto using good_nonempty. Qed.

(** C113. The summary of a chain is what substitution says, operation by operation: the flattened operations of the newest patch, in which each copy from the dictionary is replaced by the (parts of) operations
    of the next older patch that make the copied bytes, and so on. It does not depend on the bytes of source and target. *)
Theorem C113_merging_is_substitution : forall m cd newest older src out r nops oops, chain m cd src (newest :: older) out -> zlen src < 2 ^ 63 -> merge_from m cd newest older = Ok r ->
  reads_as m cd newest nops -> Forall2 (reads_as m cd) older oops -> summary_of r = merged_ops (nops :: oops).
Proof. exact merge_from_graft. Qed.

(** ** Any order *)
Scheme product_mut := Minimality for product Sort Prop with products_mut := Minimality for products Sort Prop.
Combined Scheme product_both from product_mut, products_mut.
Definition one_ok (m : mode) (cd : codecs) (src b out : list Z) (ps : list (list Z)) : Prop :=
  good_patch m cd b src out /\ ps <> [] /\ exists bops pops, reads_as m cd b bops /\ Forall2 (reads_as m cd) ps pops /\ lchain (zlen src) (map flatten pops) (zlen out) /\ flatten bops = merged_ops pops.
Definition many_ok (m : mode) (cd : codecs) (src : list Z) (bs : list (list Z)) (out : list Z) (ps : list (list Z)) : Prop :=
  chain m cd src bs out /\ (bs = [] -> src = out /\ ps = []) /\
  (bs <> [] -> zlen src < 2 ^ 63 /\ ps <> [] /\ exists bops pops, Forall2 (reads_as m cd) bs bops /\ Forall2 (reads_as m cd) ps pops /\ lchain (zlen src) (map flatten bops) (zlen out) /\ lchain (zlen src) (map flatten pops) (zlen out) /\
     merged_ops bops = merged_ops pops).
Lemma good_lnk m cd p src out : good_patch m cd p src out -> zlen src < 2 ^ 63 /\ exists ops, reads_as m cd p ops /\ Forall op_good ops /\ lnk (zlen src) (flatten ops) (zlen out).
Proof.
  intros (HA & Hs & Ho & ops & HR & Hg). split; [exact Hs|]. exists ops. split; [exact HR|]. split; [exact Hg|]. destruct (applies_extract _ _ _ _ _ _ HA HR (good_ok _ Hg)) as [_ Hrun]. now apply flatten_lnk.
Qed.
Lemma F2_nonempty {A B} (P : A -> B -> Prop) l r : Forall2 P l r -> l <> [] -> r <> [].
Proof. intros H Hl. destruct H; congruence. Qed.
Lemma products_ok m cd : (forall src b out ps, product m cd src b out ps -> one_ok m cd src b out ps) /\ (forall src bs out ps, products m cd src bs out ps -> many_ok m cd src bs out ps).
Proof.
  apply product_both.
  - intros src p out H. split; [exact H|]. split; [congruence|]. destruct (good_lnk _ _ _ _ _ H) as (_ & ops & HR & _ & HL). exists ops, [ops]. split; [exact HR|]. split; [repeat constructor; exact HR|].
    split; [|reflexivity]. cbn [map lchain]. exists (zlen src). split; [reflexivity|exact HL].
  - intros src newest older out ps r m0 seg f sc b _ (Hch & _ & H) E Hc Hw. destruct (H ltac:(congruence)) as (Hs & Hne & bopss & pops & HF1 & HF2 & HL1 & HL2 & EM).
    assert (Hn : new_ok m cd newest) by (inversion Hch; subst; eapply merge_ok_new; eassumption).
    destruct (C49_merge_chain m cd newest older src out Hch Hs Hn) as (r' & E' & Hg & Hr & Hno). rewrite E in E'. injection E' as <-. pose proof (chain_bound _ _ _ _ _ Hch Hs) as Ho.
    pose proof (summary_write_reads m0 m cd _ src out seg f sc b Hc Hg Hr Ho Hs Hw) as HRb.
    assert (Hgp : good_patch m cd b src out).
    { split; [|split; [exact Hs|split; [exact Ho|exists (summary_of r); split; [exact HRb|exact Hg]]]].
      destruct (summary_write_apply m0 m cd _ src out seg f sc b [] [] 0 Hc Hg Hr Ho Hs Hw) as (p' & HA). exists p'. rewrite app_nil_r in HA. rewrite HA. unfold over, drop. now rewrite skipn_nil, app_nil_r. }
    split; [exact Hgp|]. split; [exact Hne|]. exists (summary_of r), pops. split; [exact HRb|]. split; [exact HF2|]. split; [exact HL2|]. rewrite flatten_none by exact Hno. rewrite <- EM. inversion HF1; subst. eapply merge_from_graft; eassumption.
  - intro x. split; [constructor|]. split; [auto|intro Hx; congruence].
  - intros src mid out p older ps1 ps2 _ (Hch & H0 & H) _ (Hgp & Hne & bops & pops1 & HR & HF1 & HL1 & EM). split; [econstructor; eassumption|]. split; [intro Hx; congruence|]. intros _.
    destruct (good_lnk _ _ _ _ _ Hgp) as (Hmz & bops' & HR' & _ & HLb). pose proof (reads_as_det _ _ _ _ _ HR HR') as <-. destruct older as [|p2 older].
    + destruct (H0 eq_refl) as [-> ->]. split; [exact Hmz|]. rewrite app_nil_r. split; [exact Hne|]. exists [bops], pops1. split; [repeat constructor; exact HR|]. split; [exact HF1|].
      split; [exists (zlen mid); split; [reflexivity|exact HLb]|]. split; [exact HL1|]. exact EM.
    + destruct (H ltac:(congruence)) as (Hs & Hne2 & bopss & pops2 & HF3 & HF2 & HL3 & HL2 & EM2). split; [exact Hs|]. split; [destruct ps1; [congruence|cbn [app]; congruence]|]. exists (bops :: bopss), (pops1 ++ pops2).
      split; [constructor; assumption|]. split; [now apply Forall2_app|]. split; [exists (zlen mid); split; assumption|]. split; [rewrite map_app; eapply lchain_app; eassumption|].
      change (bops :: bopss) with ([bops] ++ bopss). rewrite (merged_app [bops] bopss (zlen src) (zlen mid) (zlen out)), (merged_app pops1 pops2 (zlen src) (zlen mid) (zlen out)); auto; try congruence.
      * rewrite EM2, <- EM. reflexivity.
      * eapply F2_nonempty; eassumption.
      * eapply F2_nonempty; [exact HF2|exact Hne2].
      * eapply F2_nonempty; [exact HF3|congruence].
      * exists (zlen mid). split; [reflexivity|exact HLb].
Qed.
Lemma F2_det m cd : forall ps a b, Forall2 (reads_as m cd) ps a -> Forall2 (reads_as m cd) ps b -> a = b.
Proof. intros ps a b H. revert b. induction H as [|p x ps a H _ IH]; intros b H2; inversion H2; subst; [reflexivity|]. f_equal; [eapply reads_as_det; eassumption|auto]. Qed.
(** However a history of patches is merged, in whatever order and with whatever intermediate patches written on the way (format, section size, compression), the operations of the result are, up to flattening, the merge
    of the operations of the original patches. *)
Theorem C113_any_order : forall m cd src b out ps bops pops, product m cd src b out ps -> reads_as m cd b bops -> Forall2 (reads_as m cd) ps pops -> flatten bops = merged_ops pops.
Proof.
  intros m cd src b out ps bops pops H HR HF. destruct (proj1 (products_ok m cd) _ _ _ _ H) as (_ & _ & b' & p' & HR' & HF' & _ & E). now rewrite (reads_as_det _ _ _ _ _ HR HR'), (F2_det _ _ _ _ _ HF HF').
Qed.
(** Two ways to merge the same history end with exactly the same summary operations. *)
Theorem C113_same_summary : forall m cd src1 src2 out1 out2 ps n1 older1 n2 older2 r1 r2, products m cd src1 (n1 :: older1) out1 ps -> products m cd src2 (n2 :: older2) out2 ps ->
  merge_from m cd n1 older1 = Ok r1 -> merge_from m cd n2 older2 = Ok r2 -> summary_of r1 = summary_of r2.
Proof.
  assert (G : forall m cd src out ps n older r, products m cd src (n :: older) out ps -> merge_from m cd n older = Ok r -> exists pops, Forall2 (reads_as m cd) ps pops /\ summary_of r = merged_ops pops).
  { intros m cd src out ps n older r H E. destruct (proj2 (products_ok m cd) _ _ _ _ H) as (Hch & _ & HX). destruct (HX ltac:(congruence)) as (Hs & _ & bopss & pops & HF1 & HF2 & _ & _ & EM). exists pops. split; [exact HF2|]. rewrite <- EM.
    inversion HF1; subst. eapply merge_from_graft; eassumption. }
  intros m cd s1 s2 t1 t2 ps n1 o1 n2 o2 r1 r2 H1 H2 E1 E2. destruct (G _ _ _ _ _ _ _ _ H1 E1) as (p1 & F1 & ->), (G _ _ _ _ _ _ _ _ H2 E2) as (p2 & F2 & ->). now rewrite (F2_det _ _ _ _ _ F1 F2).
Qed.

(** ** Instances *)
Definition r13 : merged := ok_or (Summary []) (merge_from Debug toy p23 [p12]).
Definition p13 : list Z := fst (summary_write Debug toy (summary_of r13) (Some 65536) None (Some (SmdiffComp (mkTC 10 1 None)))).
Lemma history_good m : good_patch m toy p12 v1 v2 /\ good_patch m toy p23 v2 v3 /\ good_patch m toy p34 v3 v4.
Proof.
  split; [|split]; [apply toy_good|apply toy_good|apply (C49_encoded_patches_merge Release m toy mcfg v3 v4); [apply toy_lossless| | | |]]; try (apply byteb_ok); vm_compute; reflexivity.
Qed.
(** Three patches merged in two orders, with different intermediate patches; and what substitution gives. *)
Example C113_example : forall m, products m toy v1 [p24; p12] v4 [p34; p23; p12] /\ products m toy v1 [p34; p13] v4 [p34; p23; p12] /\
  (exists r1 r2, merge_from m toy p24 [p12] = Ok r1 /\ merge_from m toy p34 [p13] = Ok r2 /\ zlen (summary_of r2) = 11) /\
  graft [Copy Dict 1 4; Add [9]] [Add [1; 2]; Copy Dict 5 2; Run 7 5] = [Add [2]; Copy Dict 5 2; Run 7 1; Add [9]] /\ flatten [Add [1; 2]; Copy Output 1 1; Copy Output 0 3] = [Add [1; 2]; Add [2]; Add [1; 2]; Add [2]].
Proof.
  intro m. destruct (history_good m) as (H12 & H23 & H34). split; [|split; [|split]].
  - apply (products_cons m toy v1 v2 v4 p24 [p12] [p34; p23] [p12]).
    + apply (products_cons m toy v1 v1 v2 p12 [] [p12] []); [constructor|now constructor].
    + eapply (product_merged m toy v2 p34 [p23] v4 [p34; p23]); [|destruct m; vm_compute; reflexivity| |].
      * apply (products_cons m toy v2 v3 v4 p34 [p23] [p34] [p23]); [|now constructor]. apply (products_cons m toy v2 v2 v3 p23 [] [p23] []); [constructor|now constructor].
      * exact (I : comp_lossless toy (Some (SmdiffComp (mkTC 40 2 (Some 16)))) v4).
      * instantiate (1 := Some Segregated). instantiate (1 := Some 70000). instantiate (1 := Release). vm_compute. reflexivity.
  - apply (products_cons m toy v1 v3 v4 p34 [p13] [p34] [p23; p12]); [|now constructor].
    apply (products_cons m toy v1 v1 v3 p13 [] [p23; p12] []); [constructor|].
    eapply (product_merged m toy v1 p23 [p12] v3 [p23; p12]); [|destruct m; vm_compute; reflexivity| |].
    + apply (products_cons m toy v1 v2 v3 p23 [p12] [p23] [p12]); [|now constructor]. apply (products_cons m toy v1 v1 v2 p12 [] [p12] []); [constructor|now constructor].
    + exact (I : comp_lossless toy (Some (SmdiffComp (mkTC 10 1 None))) v3).
    + instantiate (1 := None). instantiate (1 := Some 65536). instantiate (1 := Debug). vm_compute. reflexivity.
  - do 2 eexists. split; [destruct m; vm_compute; reflexivity|]. split; [destruct m; vm_compute; reflexivity|]. vm_compute. reflexivity.
  - split; vm_compute; reflexivity.
Qed.
Example C113_means_example : run_ops [0; 0; 0; 0; 0; 5; 6] [] [Add [1; 2]; Copy Dict 5 2; Run 7 5] = Some [1; 2; 5; 6; 7; 7; 7; 7; 7] /\ run_ops [1; 2; 5; 6; 7; 7; 7; 7; 7] [] [Copy Dict 1 4; Add [9]] = Some [2; 5; 6; 7; 9] /\
  run_ops [0; 0; 0; 0; 0; 5; 6] [] [Add [2]; Copy Dict 5 2; Run 7 1; Add [9]] = Some [2; 5; 6; 7; 9].
Proof. repeat split; reflexivity. Qed.

Print Assumptions C113_flatten_means.
Print Assumptions C113_graft_means.
Print Assumptions C113_graft_associative.
Print Assumptions C113_merging_is_substitution.
Print Assumptions C113_any_order.
Print Assumptions C113_same_summary.
