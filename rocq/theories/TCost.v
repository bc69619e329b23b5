(** Property C114: how large merged patches are. *)
From Verif Require Import Base Spec MCommon MWriter MReader MDecoder MTrgtMatcher MSrcMatcher MEncInner MEncode MMerger MTranscoder SpecApi SpecMerge SpecGraft PBase PStream PSection PDecoder PPatch PEncode
  PMerge PMerge2 PMerge3 PMerge4 PGraft PCost TEncode TMerge TPipe TGraft.
Ltac Zify.zify_post_hook ::= idtac.
Arguments Z.add : simpl never.
Arguments Z.sub : simpl never.
Arguments Z.mul : simpl never.
Arguments Z.pow : simpl never.
Arguments Z.min : simpl never.

Lemma uses_nonneg i ops : 0 <= uses i ops. Proof. apply zlen_nonneg. Qed.
Lemma graft_uses y k j : nonempty y -> forall x, nonempty x -> fits (ops_len y) x -> uses_at_most k x -> uses_at_most j y -> uses_at_most (k * j) (graft x y).
Proof.
  intros Hy x Hx Hf Hk Hj i. pose proof (graft_counts _ _ y k (copies_counts i) Hy x Hx Hf Hk) as E. rewrite !copies_sum, copies_sum' in E. specialize (Hj i). pose proof (Hk 0). pose proof (uses_nonneg 0 x). nia.
Qed.
Lemma graft_lits y k : nonempty y -> forall x, nonempty x -> fits (ops_len y) x -> uses_at_most k x -> bytes_of is_add (graft x y) <= bytes_of is_add x + k * bytes_of is_add y.
Proof. intros Hy x Hx Hf Hk. pose proof (graft_counts _ _ y k lit_counts Hy x Hx Hf Hk) as E. now rewrite !lit_sum, lit_sum' in E. Qed.

(** C114. Replacing the copies of [x] by operations of [y]: literal bytes, operations and copies of any one byte grow by as much as [y] has of them, times the number of times [x] copies a byte at most. *)
Theorem C114_graft_size : forall x y k j, Forall op_good x -> Forall op_good y -> (forall a n, In (Copy Dict a n) x -> 0 <= a /\ a + n <= ops_len y) -> uses_at_most k x ->
  bytes_of is_add (graft x y) <= bytes_of is_add x + k * bytes_of is_add y /\ zlen (graft x y) <= zlen x + k * zlen y /\ (uses_at_most j y -> uses_at_most (k * j) (graft x y)).
Proof.
  intros x y k j Hx Hy Hf Hk. apply good_nonempty in Hx, Hy. split; [now apply graft_lits|]. split; [now apply graft_number|]. intro Hj. now apply graft_uses.
Qed.

Lemma merged_size : forall l ks a c, l <> [] -> lchain a (map flatten l) c -> Forall2 (fun ops k => uses_at_most k (flatten ops)) l ks ->
  bytes_of is_add (merged_ops l) <= amounts (combine ks (map (fun ops => bytes_of is_add (flatten ops)) l)) /\ zlen (merged_ops l) <= amounts (combine ks (map (fun ops => zlen (flatten ops)) l)).
Proof.
  induction l as [|x l IH]; intros ks a c Hne HL HF; [congruence|]. inversion HF as [|? k ? ks' Hk HF']; subst. cbn [map lchain] in HL. destruct HL as (b & HL & Hx). cbn [map combine amounts].
  destruct l as [|y l]; [inversion HF'; subst; cbn [map combine amounts merged_ops fold_left]; lia|]. destruct (IH ks' a b ltac:(congruence) HL HF') as [I1 I2].
  assert (E : merged_ops (x :: y :: l) = graft (flatten x) (merged_ops (y :: l))).
  { change (x :: y :: l) with ([x] ++ y :: l). rewrite (merged_app [x] (y :: l) a b c); [reflexivity|congruence|congruence|exact HL|]. exists b. split; [reflexivity|exact Hx]. }
  destruct (merged_lnk (y :: l) a b ltac:(congruence) HL) as (M1 & M2 & M3). destruct Hx as (X1 & X2 & X3). rewrite <- M3 in X2. rewrite E. pose proof (graft_lits _ k M1 _ X1 X2 Hk). pose proof (graft_number _ k M1 _ X1 X2 Hk).
  pose proof (Hk 0). pose proof (uses_nonneg 0 (flatten x)). split; nia.
Qed.
Lemma lits_le_len ops : Forall op_good ops -> bytes_of is_add ops <= ops_len ops.
Proof. unfold bytes_of. induction 1 as [|o ops H _ IH]; [cbn; lia|]. cbn [filter]. pose proof (good_oal o H). rewrite ops_len_cons. destruct (is_add o); rewrite ?ops_len_cons; lia. Qed.
(** The summary of a chain: with the literals and operations each patch has once its copies from the output are resolved, and the number of times it copies a byte of its source at most. In any case never more literal
    bytes or operations than the target has bytes. *)
Theorem C114_summary_size : forall m cd newest older src out r nops oops ks, chain m cd src (newest :: older) out -> zlen src < 2 ^ 63 -> merge_from m cd newest older = Ok r ->
  reads_as m cd newest nops -> Forall2 (reads_as m cd) older oops -> Forall2 (fun ops k => uses_at_most k (flatten ops)) (nops :: oops) ks ->
  bytes_of is_add (summary_of r) <= amounts (combine ks (map (fun ops => bytes_of is_add (flatten ops)) (nops :: oops))) /\
  zlen (summary_of r) <= amounts (combine ks (map (fun ops => zlen (flatten ops)) (nops :: oops))) /\
  bytes_of is_add (summary_of r) <= zlen out /\ zlen (summary_of r) <= zlen out.
Proof.
  intros m cd newest older src out r nops oops ks Hch Hs E HR HF HK. rewrite (merge_from_graft m cd newest older src out r nops oops Hch Hs E HR HF).
  assert (HL : forall ps src out opss, chain m cd src ps out -> zlen src < 2 ^ 63 -> Forall2 (reads_as m cd) ps opss -> lchain (zlen src) (map flatten opss) (zlen out)).
  { clear. induction ps as [|p ps IH]; intros src out opss Hch Hs HF; inversion HF; subst; inversion Hch; subst; [reflexivity|]. match goal with H : good_patch _ _ _ _ _ |- _ => destruct (good_lnk _ _ _ _ _ H) as (_ & ops & HR & _ & HLk) end.
    match goal with H : reads_as m cd p ?z |- _ => pose proof (reads_as_det _ _ _ _ _ HR H) as <- end. cbn [map lchain]. eexists. split; [|exact HLk]. eapply IH; eassumption. }
  assert (HLc := HL _ _ _ (nops :: oops) Hch Hs (Forall2_cons _ _ HR HF)). destruct (merged_size (nops :: oops) ks (zlen src) (zlen out) ltac:(congruence) HLc HK) as [H1 H2]. split; [exact H1|]. split; [exact H2|].
  rewrite <- (merge_from_graft m cd newest older src out r nops oops Hch Hs E HR HF).
  assert (Hn : new_ok m cd newest) by (inversion Hch; subst; eapply merge_ok_new; eassumption). destruct (C49_merge_chain _ _ _ _ _ _ Hch Hs Hn) as (r' & E' & Hg & Hr & _). rewrite E in E'. injection E' as <-.
  pose proof (run_ops_len _ _ _ _ (ops_ok_nonneg _ (good_ok _ Hg)) Hr) as Hlen. rewrite (@zlen_nil Z) in Hlen. pose proof (lits_le_len _ Hg). pose proof (good_zlen _ Hg). lia.
Qed.
(** If the patches do not copy from their own output and none copies a byte of its source twice, merging never adds: at most as many literal bytes and operations as all patches together. *)
Theorem C114_no_growth : forall m cd newest older src out r nops oops, chain m cd src (newest :: older) out -> zlen src < 2 ^ 63 -> merge_from m cd newest older = Ok r ->
  reads_as m cd newest nops -> Forall2 (reads_as m cd) older oops -> Forall (fun ops => existsb is_out_copy ops = false /\ uses_at_most 1 ops) (nops :: oops) ->
  bytes_of is_add (summary_of r) <= bytes_of is_add (concat (nops :: oops)) /\ zlen (summary_of r) <= zlen (concat (nops :: oops)).
Proof.
  intros m cd newest older src out r nops oops Hch Hs E HR HF HK. assert (G : forall l, Forall (fun ops => existsb is_out_copy ops = false /\ uses_at_most 1 ops) l -> Forall2 (fun ops k => uses_at_most k (flatten ops)) l (map (fun _ => 1) l) /\
    amounts (combine (map (fun _ => 1) l) (map (fun ops => bytes_of is_add (flatten ops)) l)) = bytes_of is_add (concat l) /\ amounts (combine (map (fun _ => 1) l) (map (fun ops => zlen (flatten ops)) l)) = zlen (concat l)).
  { induction 1 as [|x l [Hx1 Hx2] _ (I1 & I2 & I3)]; [repeat split; constructor|]. cbn [map combine amounts concat]. rewrite flatten_none by exact Hx1. split; [constructor; [now rewrite flatten_none|exact I1]|]. rewrite I2, I3, zlen_app.
    unfold bytes_of. rewrite filter_app, ops_len_app. lia. }
  destruct (G _ HK) as (G1 & G2 & G3). destruct (C114_summary_size m cd newest older src out r nops oops _ Hch Hs E HR HF G1) as (H1 & H2 & _). rewrite G2 in H1. rewrite G3 in H2. auto.
Qed.

(** ** Growth *)
Lemma written_patch cd ops src out : Forall op_good ops -> run_ops src [] ops = Some out -> zlen out < 2 ^ 63 -> zlen src < 2 ^ 63 -> exists p, forall m, good_patch m cd p src out /\ reads_as m cd p ops.
Proof.
  intros Hg Hr Ho Hs. destruct (summary_write_ok Release cd ops src out None None None I Hg Hr Ho Hs) as (b & Hw). exists b. intro m.
  pose proof (summary_write_reads Release m cd ops src out None None None b I Hg Hr Ho Hs Hw) as HR. split; [|exact HR].
  destruct (summary_write_apply Release m cd ops src out None None None b [] [] 0 I Hg Hr Ho Hs Hw) as (p' & HA). rewrite app_nil_r in HA. unfold over, drop in HA. rewrite skipn_nil, app_nil_r in HA.
  split; [exists p'; exact HA|]. split; [exact Hs|]. split; [exact Ho|]. exists ops. auto.
Qed.
Lemma run_repeat d o b : (forall acc, op_bytes d acc o = Some b) -> forall n acc, run_ops d acc (repeat o n) = Some (acc ++ concat (repeat b n)).
Proof. intro H. induction n as [|n IH]; intro acc; cbn [repeat run_ops concat]; [now rewrite app_nil_r|]. rewrite H, IH. now rewrite app_assoc. Qed.
Lemma concat_len {A} (b : list A) n : zlen (concat (repeat b n)) = Z.of_nat n * zlen b.
Proof. induction n as [|n IH]; cbn [repeat concat]; [rewrite zlen_nil; lia|]. rewrite zlen_app, IH. lia. Qed.
Lemma good_repeat o n : op_good o -> Forall op_good (repeat o n).
Proof. intro H. apply Forall_forall. intros x Hx. apply repeat_spec in Hx. now subst. Qed.
(** Refuted: that a merged patch is about as large as the patches it is made from. A literal the newer patch copies [c] times is in the summary [c] times: *)
Theorem C114_copied_literals_refuted : forall cd lits c src, Forall is_byte lits -> 1 <= zlen lits <= 65535 -> (1 <= c)%nat -> Z.of_nat c * zlen lits < 2 ^ 63 -> zlen src < 2 ^ 63 ->
  exists older newest, forall m, chain m cd src [newest; older] (concat (repeat lits c)) /\ reads_as m cd older [Add lits] /\ reads_as m cd newest (repeat (Copy Dict 0 (zlen lits)) c) /\
    exists r, merge_from m cd newest [older] = Ok r /\ summary_of r = repeat (Add lits) c.
Proof.
  intros cd lits c src Hb HL Hc Hsz Hs.
  assert (G1 : op_good (Add lits)) by (unfold op_good, op_ok; cbn; repeat split; auto; lia).
  assert (G2 : op_good (Copy Dict 0 (zlen lits))) by (unfold op_good, op_ok; cbn; repeat split; lia).
  assert (Hl63 : zlen lits < 2 ^ 63) by lia.
  destruct (written_patch cd [Add lits] src lits) as (older & HO); [now repeat constructor|reflexivity|exact Hl63|exact Hs|].
  destruct (written_patch cd (repeat (Copy Dict 0 (zlen lits)) c) lits (concat (repeat lits c))) as (newest & HN); [now apply good_repeat| |rewrite concat_len; lia|exact Hl63|].
  { apply (run_repeat lits (Copy Dict 0 (zlen lits)) lits). intro acc. cbn [op_bytes]. replace (in_range lits 0 (zlen lits)) with true by (symmetry; apply in_range_iff; lia). now rewrite sub_all by lia. }
  exists older, newest. intro m. destruct (HO m) as [O1 O2], (HN m) as [N1 N2].
  assert (Hch : chain m cd src [newest; older] (concat (repeat lits c))) by (econstructor; [econstructor; [constructor|exact O1]|exact N1]).
  split; [exact Hch|]. split; [exact O2|]. split; [exact N2|].
  assert (Hn : new_ok m cd newest) by (right; eexists; split; [exact N2|]; right; destruct c; [lia|reflexivity]).
  destruct (C49_merge_chain m cd newest [older] src _ Hch Hs Hn) as (r & E & _). exists r. split; [exact E|].
  rewrite (merge_from_graft m cd newest [older] src _ r _ [[Add lits]] Hch Hs E N2 (Forall2_cons _ _ O2 (Forall2_nil _))). unfold merged_ops. cbn [fold_left].
  rewrite (flatten_none (repeat _ c)) by (clear; induction c; [reflexivity|exact IHc]). change (flatten [Add lits]) with [Add lits]. clear - HL. induction c as [|c IH]; [reflexivity|]. cbn [repeat]. rewrite graft_cons, IH. f_equal.
  unfold graft. cbn [flat_map slice op_len]. replace (zlen lits <=? 0) with false by lia. cbn [cut_op]. replace (Z.min (zlen lits) (zlen lits - 0)) with (zlen lits) by lia. now rewrite sub_all by lia.
Qed.
(** and a literal a patch copies from its own output is in the summary as often as it is in the output, even if nothing is merged with it. *)
Theorem C114_output_copies_refuted : forall cd lits c src, Forall is_byte lits -> 1 <= zlen lits <= 65535 -> 1 + (1 + Z.of_nat c) * zlen lits < 2 ^ 63 -> src <> [] -> zlen src < 2 ^ 63 ->
  exists newest, forall m, chain m cd src [newest] (take 1 src ++ concat (repeat lits (S c))) /\ reads_as m cd newest (Copy Dict 0 1 :: Add lits :: repeat (Copy Output 1 (zlen lits)) c) /\
    exists r, merge_from m cd newest [] = Ok r /\ summary_of r = Copy Dict 0 1 :: repeat (Add lits) (S c).
Proof.
  intros cd lits c src Hb HL Hsz Hne Hs. assert (Hs1 : 1 <= zlen src) by (destruct src; [congruence|rewrite zlen_cons; pose proof (zlen_nonneg src); lia]).
  assert (G1 : op_good (Add lits)) by (unfold op_good, op_ok; cbn; repeat split; auto; lia).
  assert (G2 : op_good (Copy Output 1 (zlen lits))) by (unfold op_good, op_ok; cbn; repeat split; lia).
  assert (G3 : op_good (Copy Dict 0 1)) by (unfold op_good, op_ok; cbn; repeat split; lia).
  assert (Ht : zlen (take 1 src) = 1) by (rewrite zlen_take by lia; reflexivity).
  assert (Hg : Forall op_good (Copy Dict 0 1 :: Add lits :: repeat (Copy Output 1 (zlen lits)) c)) by (constructor; [exact G3|constructor; [exact G1|now apply good_repeat]]).
  assert (HR : run_ops src [] (Copy Dict 0 1 :: Add lits :: repeat (Copy Output 1 (zlen lits)) c) = Some (take 1 src ++ concat (repeat lits (S c)))).
  { cbn [run_ops op_bytes]. replace (in_range src 0 1) with true by (symmetry; apply in_range_iff; lia). cbn [app]. replace (sub src 0 1) with (take 1 src) by (now rewrite take_is_sub).
    assert (GG : forall n acc, zlen (take 1 src ++ lits) <= zlen acc -> take (1 + zlen lits) acc = take 1 src ++ lits -> run_ops src acc (repeat (Copy Output 1 (zlen lits)) n) = Some (acc ++ concat (repeat lits n))).
    { induction n as [|n IH]; intros acc H1 H2; cbn [repeat run_ops concat]; [now rewrite app_nil_r|]. rewrite zlen_app in H1. cbn [op_bytes]. replace (in_range acc 1 (zlen lits)) with true by (symmetry; apply in_range_iff; lia).
      assert (E : sub acc 1 (zlen lits) = lits).
      { replace (sub acc 1 (zlen lits)) with (sub (take (1 + zlen lits) acc) 1 (zlen lits)) by (rewrite take_is_sub; rewrite sub_sub by lia; reflexivity). rewrite H2, sub_app_r by lia. rewrite Ht, Z.sub_diag. now rewrite sub_all by lia. }
      rewrite E, IH; [now rewrite app_assoc|rewrite !zlen_app; lia|]. rewrite take_app_l by lia. exact H2. }
    rewrite GG; [cbn [repeat concat]; now rewrite app_assoc|lia|]. apply take_all. rewrite zlen_app. lia. }
  destruct (written_patch cd _ src _ Hg HR) as (newest & HN); [rewrite zlen_app, concat_len; lia|exact Hs|]. exists newest. intro m. destruct (HN m) as [N1 N2].
  assert (Hch : chain m cd src [newest] (take 1 src ++ concat (repeat lits (S c)))) by (econstructor; [constructor|exact N1]). split; [exact Hch|]. split; [exact N2|].
  assert (Hn : new_ok m cd newest) by (right; eexists; split; [exact N2|]; right; reflexivity).
  destruct (C49_merge_chain m cd newest [] src _ Hch Hs Hn) as (r & E & _). exists r. split; [exact E|].
  rewrite (merge_from_graft m cd newest [] src _ r _ [] Hch Hs E N2 (Forall2_nil _)). unfold merged_ops, flatten. cbn [fold_left app repeat].
  assert (GG : forall n rest, fold_left (fun done o => done ++ match o with Copy Output a n => slice done a n | _ => [o] end) (repeat (Copy Output 1 (zlen lits)) n) (Copy Dict 0 1 :: Add lits :: rest) = (Copy Dict 0 1 :: Add lits :: rest) ++ repeat (Add lits) n).
  { clear - HL. induction n as [|n IH]; intro rest; cbn [repeat fold_left]; [now rewrite app_nil_r|].
    assert (E : slice (Copy Dict 0 1 :: Add lits :: rest) 1 (zlen lits) = [Add lits]).
    { cbn [slice op_len]. replace (zlen lits <=? 0) with false by lia. replace (1 <=? 1) with true by lia. replace (1 - 1) with 0 by lia. cbn [cut_op]. replace (Z.min (zlen lits) (zlen lits - 0)) with (zlen lits) by lia.
      replace (zlen lits <=? 0) with false by lia. rewrite sub_all by lia. rewrite slice_0 by lia. reflexivity. }
    rewrite E. cbn [app]. rewrite IH. cbn [app]. now rewrite <- app_assoc. }
  now rewrite GG.
Qed.

(** ** Instances *)
Example C114_graft_example : uses_at_most 2 [Copy Dict 1 4; Add [9]; Copy Dict 2 2; Copy Dict 5 3] /\ ~ uses_at_most 1 [Copy Dict 1 4; Add [9]; Copy Dict 2 2; Copy Dict 5 3] /\
  (forall a n, In (Copy Dict a n) [Copy Dict 1 4; Add [9]; Copy Dict 2 2; Copy Dict 5 3] -> 0 <= a /\ a + n <= ops_len [Add [1; 2]; Copy Dict 5 2; Run 7 5]) /\
  graft [Copy Dict 1 4; Add [9]; Copy Dict 2 2; Copy Dict 5 3] [Add [1; 2]; Copy Dict 5 2; Run 7 5] = [Add [2]; Copy Dict 5 2; Run 7 1; Add [9]; Copy Dict 5 2; Run 7 3] /\
  uses_at_most 1 [Add [1; 2]; Copy Dict 5 2; Run 7 5].
Proof.
  split; [|split; [|split; [|split]]].
  - intro i. rewrite !uses_cons. change (uses i []) with 0. destruct ((1 <=? i) && (i <? 1 + 4)) eqn:E1, ((2 <=? i) && (i <? 2 + 2)) eqn:E2, ((5 <=? i) && (i <? 5 + 3)) eqn:E3; lia.
  - intro H. specialize (H 2). vm_compute in H. congruence.
  - intros a n H. cbn [In] in H. destruct H as [E|[E|[E|[E|[]]]]]; try discriminate; injection E as <- <-; vm_compute; split; congruence.
  - vm_compute. reflexivity.
  - intro i. rewrite !uses_cons. change (uses i []) with 0. destruct ((5 <=? i) && (i <? 5 + 2)); lia.
Qed.
Example C114_no_growth_example : forall m, chain m toy v1 [q23; q12] [2; 3; 4] /\ merge_from m toy q23 [q12] = Ok (Summary [Add [2; 3; 4]]) /\ reads_as m toy q23 [Copy Dict 1 3] /\ Forall2 (reads_as m toy) [q12] [[Add [1; 2; 3; 4; 5; 6]]] /\
  Forall (fun ops => existsb is_out_copy ops = false /\ uses_at_most 1 ops) [[Copy Dict 1 3]; [Add [1; 2; 3; 4; 5; 6]]] /\ bytes_of is_add [Add [2; 3; 4]] = 3 /\ amounts (combine [1; 1] [0; 6]) = 6.
Proof.
  intro m. destruct (C50_example m) as (H1 & _ & H2). split; [exact H1|]. split; [exact H2|].
  assert (R1 : reads_as m toy q23 [Copy Dict 1 3]) by (do 2 eexists; split; [apply pr_last; [destruct m; vm_compute; reflexivity|reflexivity]|reflexivity]).
  assert (R2 : reads_as m toy q12 [Add [1; 2; 3; 4; 5; 6]]) by (do 2 eexists; split; [apply pr_last; [destruct m; vm_compute; reflexivity|reflexivity]|reflexivity]).
  split; [exact R1|]. split; [now repeat constructor|]. split; [|split; vm_compute; reflexivity].
  constructor; [|constructor; [|constructor]]; (split; [reflexivity|]); intro i; rewrite !uses_cons; change (uses i []) with 0; [|lia]. destruct ((1 <=? i) && (i <? 1 + 3)); lia.
Qed.
Example C114_growth_example : forall m, exists older newest, chain m toy v1 [newest; older] (concat (repeat [1; 2; 3] 100)) /\ reads_as m toy older [Add [1; 2; 3]].
Proof.
  intro m. destruct (C114_copied_literals_refuted toy [1; 2; 3] 100 v1) as (o & n & H); [apply byteb_ok; reflexivity|vm_compute; split; congruence|lia|vm_compute; reflexivity|vm_compute; reflexivity|].
  destruct (H m) as (H1 & H2 & _). exists o, n. auto.
Qed.

Print Assumptions C114_graft_size.
Print Assumptions C114_summary_size.
Print Assumptions C114_no_growth.
Print Assumptions C114_copied_literals_refuted.
Print Assumptions C114_output_copies_refuted.
