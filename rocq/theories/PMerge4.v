(** Proofs about smdiff-merger, continued. *)
From Verif Require Import Base Spec MCommon MWriter MReader MDecoder MEncode MMerger SpecApi SpecMerge PBase PStream PSection PWriter PDecoder PPatch POpMaker PEncode PTotal2 PMerge PMerge2 PMerge3.
Ltac Zify.zify_post_hook ::= idtac.
Arguments Z.add : simpl never.
Arguments Z.sub : simpl never.
Arguments Z.mul : simpl never.
Arguments Z.pow : simpl never.

Lemma pl_run_to dict out : forall l p, contiguous p l -> Forall (in_place dict out) l -> 0 <= p -> run_ops dict (take p out) (map snd l) = Some (take (p + slen l) out).
Proof.
  induction l as [|[q o] l IH]; intros p Hc Hp H0.
  - unfold slen. cbn. now rewrite Z.add_0_r.
  - destruct Hc as [-> Hc]. inversion Hp as [|? ? H1 H2]; subst. destruct H1 as (Hg & _ & He & Hb). cbn [fst snd map run_ops] in *. rewrite Hb.
    rewrite slen_cons. cbn [snd]. pose proof (good_oal _ Hg). rewrite <- take_split by lia. rewrite IH by (auto; lia). f_equal. f_equal. lia.
Qed.

(** ** Every section read takes at least one byte *)
Lemma streaming_shrink {A} (p : list Z -> res (A * list Z)) bs v r : streaming p -> p bs = Ok (v, r) -> (length r <= length bs)%nat /\ (p [] = Err EOF -> (length r < length bs)%nat).
Proof.
  intros Hs H. destruct (Hs _ _ _ H) as (c & -> & Ht & _). rewrite app_length. split; [lia|]. intro E. destruct c; [|cbn; lia].
  specialize (Ht []). cbn in Ht. congruence.
Qed.
Lemma patch_read_shrink next : (forall bs ops h r, next bs = Ok (ops, h, r) -> (length r <= length bs)%nat) -> forall bs secs r, patch_read next bs secs r -> (length r <= length bs)%nat.
Proof. intros Hn bs secs r H. induction H as [bs ops h r E Hm|bs ops h r secs r' E Hm Hp IH]; apply Hn in E; lia. Qed.
Lemma next_section_shrink m cd : codecs_shrink cd -> forall bs ops h r, next_section m cd bs = Ok (ops, h, r) -> (length r < length bs)%nat.
Proof.
  intros [Hz Hb] bs ops h r H. unfold next_section in H. apply bind_ok in H as ([h0 bs1] & H1 & H).
  destruct (streaming_shrink _ _ _ _ (streaming_header m) H1) as [_ Hl]. specialize (Hl eq_refl).
  destruct (h_comp h0 =? 1).
  - destruct (apply_no_sec_comp m None bs1 (mkSink [] 0)) as [s [rest|e| |]] eqn:E; try discriminate.
    apply bind_ok in H as ([[ops2 h2] r2] & H2 & H). injection H as <- <- <-. unfold apply_no_sec_comp in E.
    destruct (apply_loop_reads _ _ _ _ _ _ _ _ E) as (secs & Hp & _). apply patch_read_shrink in Hp; [lia|].
    intros bs' ops' h' r' E'. eapply streaming_shrink; [apply streaming_section|exact E'].
  - destruct (h_comp h0 =? 2); [|destruct (h_comp h0 =? 3)].
    + apply bind_ok in H as ([dec rest] & H2 & H). apply bind_ok in H as ([[ops2 h2] r2] & H3 & H). injection H as <- <- <-. apply Hz in H2. unfold zlen in H2. lia.
    + apply bind_ok in H as ([dec rest] & H2 & H). apply bind_ok in H as ([[ops2 h2] r2] & H3 & H). injection H as <- <- <-. apply Hb in H2. unfold zlen in H2. lia.
    + pose proof (streaming_shrink _ _ _ _ (streaming_read_ops m h0) H) as [? _]. lia.
Qed.
Lemma patch_read_len m cd : codecs_shrink cd -> forall bs secs r, patch_read (next_section m cd) bs secs r -> (length secs + length r <= length bs)%nat.
Proof.
  intros Hc bs secs r H. induction H as [bs ops h r E Hm|bs ops h r secs r' E Hm Hp IH]; apply (next_section_shrink m cd Hc) in E; cbn [length]; lia.
Qed.
Lemma patch_read_typed m cd : codecs_bytes cd -> forall bs secs r, patch_read (next_section m cd) bs secs r -> Forall is_byte bs -> Forall op_ok (concat (map fst secs)) /\ Forall is_byte r.
Proof.
  intros Hc bs secs r H. induction H as [bs ops h r E Hm|bs ops h r secs r' E Hm Hp IH]; intro Hb; destruct (next_section_typed m cd Hc _ _ _ _ Hb E) as [H1 H2]; cbn [map fst concat].
  - rewrite app_nil_r. auto.
  - destruct (IH H2) as [H3 H4]. split; [apply Forall_app; auto|exact H4].
Qed.
Lemma extract_loop_reads m cd : forall fuel bs pos s l st, extract_loop fuel m cd bs pos s = Ok (l, st) -> exists secs r, patch_read (next_section m cd) bs secs r.
Proof.
  induction fuel as [|k IH]; intros bs pos s l st H; [discriminate|]. cbn [extract_loop] in H. apply bind_ok in H as ([[ops h] rest] & E & H).
  destruct (extract_ops ops pos s) as [[l1 p1] s1]. destruct (h_more h) eqn:Hm.
  - apply bind_ok in H as ([l' s'] & H & _). destruct (IH _ _ _ _ _ H) as (secs & r & Hp). exists ((ops, h) :: secs), r. econstructor; eassumption.
  - exists [(ops, h)], rest. now constructor.
Qed.

(** ** Writing always succeeds without smdiff compression *)
Lemma write_all_ok m cd sc f : legal_comp sc -> forall secs, Forall (fun s => sec_in f max_win_size (fst s, set_format (snd s) f)) secs ->
  exists b, write_all_sections (section_writer m cd sc) f secs = (b, Ok tt).
Proof.
  intro Hsc. induction 1 as [|[ops h] secs Hi _ [b IH]]; [eexists; reflexivity|]. cbn [fst snd] in Hi. cbn [write_all_sections].
  destruct (section_writer_ok m cd sc f ops _ Hi Hsc) as (b1 & ->). cbn [wbind]. rewrite IH. eexists; reflexivity.
Qed.
Lemma summary_write_ok m cd ops src out seg f sc : legal_comp sc ->
  Forall op_good ops -> run_ops src [] ops = Some out -> zlen out < 2 ^ 63 -> zlen src < 2 ^ 63 ->
  exists b, summary_write m cd ops seg f sc = (b, Ok tt).
Proof.
  intros Hsc Hg Hr Ho Hs. unfold summary_write. cbv zeta. rewrite clamp_idem. apply write_all_ok; [exact Hsc|].
  assert (Hmk : makes src [] ops out) by (split; [exact Hg|exact Hr]).
  set (w := match seg with Some w => w | None => MAX_WIN_SIZE end). set (fm := match f with Some f => f | None => Interleaved end).
  destruct (sections_in fm w src out ops Hmk Ho Hs) as (_ & _ & Hin).
  eapply Forall_impl; [|exact Hin]. intros s (G1 & G2 & G3 & G4 & G5 & G5b & G6).
  repeat (split; [assumption|]). eapply Z.le_trans; [exact G6|]. unfold clamp_section, max_inst_size, max_win_size. lia.
Qed.
Lemma summary_write_apply m m' cd ops src out seg f sc b t old p : comp_lossless cd sc out -> Forall op_good ops -> run_ops src [] ops = Some out -> zlen out < 2 ^ 63 -> zlen src < 2 ^ 63 ->
  summary_write m cd ops seg f sc = (b, Ok tt) -> exists p', apply_patch m' cd (b ++ t) (Some src) (mkSink old p) = (mkSink (over out old) p', Ok tt).
Proof.
  intros Hc Hg Hr Ho Hs H. unfold summary_write in H. cbv zeta in H. rewrite clamp_idem in H.
  eapply write_all_apply; [exact Hc| |exact Ho|exact Hs|exact H]. split; [exact Hg|exact Hr].
Qed.

(** ** Chains *)
Lemma chain_bound m cd src ps out : chain m cd src ps out -> zlen src < 2 ^ 63 -> zlen out < 2 ^ 63.
Proof. induction 1 as [|src mid out p older Hc IH (_ & _ & Ho & _)]; auto. Qed.
Lemma merge_more_spec m cd : forall older src mid, chain m cd src older mid -> forall out g, zlen src < 2 ^ 63 -> zlen out < 2 ^ 63 -> merger_for mid out g ->
  exists r, merge_more m cd g older = Ok r /\ merged_for m src out r.
Proof.
  induction older as [|p older IH]; intros src mid Hch out g Hs Ho Hg; inversion Hch; subst; cbn [merge_more].
  - eexists. split; [reflexivity|exact Hg].
  - match goal with H : good_patch _ _ _ _ _ |- _ => destruct H as (HA & Hsz & Hmz & ops & HR & Hgo) end.
    destruct (merger_merge_spec m cd g p _ mid out ops Hsz Hmz Ho Hg HA HR Hgo) as (r & -> & Hr & _). cbn [bind]. destruct r as [g'|ops'].
    + eapply IH; eassumption.
    + eexists. split; [reflexivity|exact Hr].
Qed.
Lemma reads_as_det m cd p o1 o2 : reads_as m cd p o1 -> reads_as m cd p o2 -> o1 = o2.
Proof. intros (s1 & r1 & H1 & ->) (s2 & r2 & H2 & ->). now destruct (patch_read_det _ _ _ _ H1 _ _ H2) as [-> _]. Qed.
Lemma merge_from_spec m cd p older src out : chain m cd src (p :: older) out -> zlen src < 2 ^ 63 -> new_ok m cd p ->
  exists r, merge_from m cd p older = Ok r /\ merged_for m src out r.
Proof.
  intros Hch Hs Hn. inversion Hch; subst. match goal with H : good_patch _ _ _ _ _ |- _ => destruct H as (HA & Hsz & Hmz & ops & HR & Hgo) end.
  unfold merge_from. destruct (merger_new_spec m cd p _ out ops Hsz Hmz HA HR Hgo) as (r & -> & Hr).
  { destruct Hn as [->|(ops' & HR' & Hn)]; [now left|right]. now rewrite (reads_as_det _ _ _ _ _ HR HR'). }
  cbn [bind]. destruct r as [g|ops'].
  - eapply merge_more_spec; eassumption.
  - eexists. split; [reflexivity|exact Hr].
Qed.
Lemma merged_summary m src out r : merged_for m src out r -> Forall op_good (summary_of r) /\ run_ops src [] (summary_of r) = Some out /\ existsb is_out_copy (summary_of r) = false.
Proof.
  destruct r as [g|ops]; cbn [merged_for summary_of].
  - apply merger_finish_spec.
  - intros (H1 & H2 & H3). split; [exact H1|]. split; [apply H3|]. rewrite copy_split in H2. now apply orb_false_iff in H2 as [_ H2].
Qed.
Lemma merge_more_early m cd : forall older g ops rest, merge_more m cd g older = Ok (Summary ops) -> merge_more m cd g (older ++ rest) = Ok (Summary ops).
Proof.
  induction older as [|p older IH]; intros g ops rest H; cbn [merge_more app] in *; [discriminate|].
  destruct (merger_merge m cd g p) as [[g'|o]| | |]; cbn [bind] in *; try discriminate; [now apply IH|exact H].
Qed.
Lemma merge_from_early m cd p older ops rest : merge_from m cd p older = Ok (Summary ops) -> merge_from m cd p (older ++ rest) = Ok (Summary ops).
Proof.
  unfold merge_from. destruct (merger_new m cd p) as [[g'|o]| | |]; cbn [bind]; try discriminate; [apply merge_more_early|auto].
Qed.

(** ** The debug assertion of new *)
Lemma new_panics cd patch src out ops : zlen src < 2 ^ 63 -> zlen out < 2 ^ 63 -> applies Debug cd patch src out -> reads_as Debug cd patch ops -> Forall op_good ops ->
  existsb is_out_copy ops = true -> existsb is_dict_copy ops = false -> merger_new Debug cd patch = Panic.
Proof.
  intros Hs Ho HA HR Hg H1 H2. destruct (applies_extract _ _ _ _ _ _ HA HR (good_ok _ Hg)) as [HE Hrun]. unfold merger_new. rewrite HE. cbn [bind].
  rewrite stats_fold by now apply good_ok. cbn [st_copy_bytes stats_new]. destruct (copy_bytes_zero _ Hg) as [Hb0 Hb1].
  assert (bytes_of is_copy ops <> 0) by (intro E; apply Hb1 in E; rewrite copy_split, H1, orb_true_r in E; discriminate).
  replace (0 + 2 * bytes_of is_copy ops =? 0) with false by lia.
  destruct (deref_spec Debug src ops out ltac:(lia) ltac:(lia) Hg Hrun) as (r & -> & C & P & N & L & D). cbn [bind].
  assert (E : find_mergeable r 0 = []) by (apply find_mergeable_nil; congruence). rewrite E. reflexivity.
Qed.
Lemma deref_det m ops r : Forall op_good ops -> forall d out, zlen d < 2 ^ 64 -> zlen out < 2 ^ 64 -> run_ops d [] ops = Some out -> deref_copy_o m (number 0 ops) = Ok r ->
  run_ops d [] (map snd r) = Some out.
Proof.
  intros Hg d out Hd Ho Hr E. destruct (deref_spec m d ops out Hd Ho Hg Hr) as (r' & E' & C & P & N & L & D). rewrite E in E'. injection E' as <-.
  now apply pl_run0.
Qed.

(** ** Predecessors that do not fit *)
Lemma find_mergeable_in : forall l k i, In i (find_mergeable l k) <-> exists q a n, k <= i /\ nth_error l (Z.to_nat (i - k)) = Some (q, Copy Dict a n).
Proof.
  induction l as [|[q o] l IH]; intros k i; cbn [find_mergeable].
  - split; [intros []|]. intros (q & a & n & _ & H). destruct (Z.to_nat (i - k)); discriminate.
  - rewrite in_app_iff, IH. split.
    + intros [H|(q' & a & n & H1 & H2)].
      * destruct (is_dict_copy o) eqn:E; [|destruct H]. destruct H as [<-|[]]. destruct o as [|?|[] a n]; try discriminate. exists q, a, n. split; [lia|]. now rewrite Z.sub_diag.
      * exists q', a, n. split; [lia|]. replace (Z.to_nat (i - k)) with (S (Z.to_nat (i - (k + 1)))) by lia. exact H2.
    + intros (q' & a & n & H1 & H2). destruct (Z.eq_dec i k) as [->|N].
      * rewrite Z.sub_diag in H2. cbn in H2. injection H2 as -> ->. left. cbn. now left.
      * right. exists q', a, n. split; [lia|]. replace (Z.to_nat (i - k)) with (S (Z.to_nat (i - (k + 1)))) in H2 by lia. exact H2.
Qed.
Lemma merge_loop_panic m src mid T P : zlen src < 2 ^ 64 -> zlen mid < 2 ^ 64 -> contiguous 0 P -> Forall (in_place src mid) P -> slen P = zlen mid ->
  forall ix shift, Forall (fun i => 0 <= i /\ exists q a n, nth_error T (Z.to_nat i) = Some (q, Copy Dict a n) /\ op_good (Copy Dict a n)) ix ->
  Exists (fun i => exists q a n, nth_error T (Z.to_nat i) = Some (q, Copy Dict a n) /\ zlen mid < a + n) ix -> merge_loop m T P ix shift = Panic.
Proof.
  intros Hs Hm C Hp HP. induction ix as [|i ix IH]; intros shift Hall Hex; [inversion Hex|]. inversion Hall as [|? ? (Hi & q & a & n & Hn & Hg) Hall']; subst. cbn [merge_loop].
  assert (Ei : idx T i = Ok (q, Copy Dict a n)) by (unfold idx; replace (i <? 0) with false by lia; now rewrite Hn). rewrite Ei. cbn [bind snd].
  replace (debug_assert_ m true) with (@Ok unit tt) by (destruct m; reflexivity). cbn [bind]. destruct Hg as [[Ht _] Hl]. cbn [op_typed op_len] in Ht, Hl.
  pose proof (exact_slice_spec m src mid P a n Hs Hm C Hp ltac:(lia) ltac:(lia)) as HE. destruct (a + n <=? slen P) eqn:E.
  - destruct HE as (r & -> & Cr & Pr & L & K & N). cbn [bind].
    assert (Hr1 : 1 <= zlen r) by (destruct r; [contradiction|rewrite zlen_cons; pose proof (zlen_nonneg r); lia]).
    assert (Hr2 : zlen r <= slen r) by exact (zlen_pl_list _ _ _ Pr).
    rewrite usub_ok by lia. cbn [bind]. rewrite IH; [reflexivity|exact Hall'|]. inversion Hex as [? ? (q' & a' & n' & Hn' & Hx)|]; subst; [|assumption].
    exfalso. rewrite Hn in Hn'. injection Hn' as <- <- <-. lia.
  - rewrite HE. reflexivity.
Qed.
Lemma deref_loop_keeps m o : is_out_copy o = false -> forall ext output pos r, Forall (fun x => op_ok (snd x)) ext -> deref_loop m ext output pos = Ok r ->
  In o (map snd output) \/ In o (map snd ext) -> In o (map snd r).
Proof.
  intro Ho. induction ext as [|[q x] ext IH]; intros output pos r Hok H Hin; cbn [deref_loop] in H.
  - injection H as <-. destruct Hin as [Hin|[]]; exact Hin.
  - apply bind_ok in H as (resd & E & H). destruct (place resd pos) as [l p] eqn:Ep. inversion Hok; subst.
    apply (IH _ _ _ ltac:(eassumption) H). rewrite map_app, in_app_iff. destruct Hin as [Hin|[Hin|Hin]]; [auto| |auto]. left. right. cbn [snd] in Hin. subst x.
    assert (Er : resd = [(0, o)]) by (destruct o as [|?|[]]; try discriminate; injection E as <-; reflexivity). subst resd. cbn [place] in Ep. injection Ep as <- _. now left.
Qed.
Lemma merge_mismatch m cd newest p mid out src mid' ops a n : good_patch m cd newest mid out -> reads_as m cd newest ops -> In (Copy Dict a n) ops ->
  good_patch m cd p src mid' -> zlen mid' < a + n -> exists g, merger_new m cd newest = Ok (Open g) /\ merger_merge m cd g p = Panic.
Proof.
  intros (HA & Hmz & Hoz & ops0 & HR0 & Hg) HR Hin (HA' & Hsz & Hmz' & ops' & HR' & Hg') Hlt. rewrite (reads_as_det _ _ _ _ _ HR0 HR) in Hg. clear HR0 ops0.
  assert (Hd : existsb is_dict_copy ops = true) by (apply existsb_exists; exists (Copy Dict a n); auto).
  destruct (applies_extract _ _ _ _ _ _ HA HR (good_ok _ Hg)) as [HE Hrun].
  destruct (merger_new_spec m cd newest mid out ops Hmz Hoz HA HR Hg ltac:(auto)) as (r & E & Hr). destruct r as [g|ops1].
  2:{ exfalso. unfold merger_new in E. rewrite HE in E. cbn [bind] in E. rewrite stats_fold in E by now apply good_ok. cbn [st_copy_bytes stats_new] in E.
      destruct (copy_bytes_zero _ Hg) as [Hb0 Hb1]. assert (bytes_of is_copy ops <> 0) by (intro Eq; apply Hb1 in Eq; rewrite copy_split, Hd in Eq; discriminate).
      replace (0 + 2 * bytes_of is_copy ops =? 0) with false in E by lia. apply bind_ok in E as (t & _ & E). apply bind_ok in E as (u & _ & E). discriminate. }
  exists g. split; [exact E|]. destruct Hr as (C & P & N & L & X).
  assert (Hin' : In (Copy Dict a n) (map snd (mg_patch g))).
  { unfold merger_new in E. rewrite HE in E. cbn [bind] in E. destruct (st_copy_bytes _ =? 0); [discriminate|].
    apply bind_ok in E as (t & E1 & E). apply bind_ok in E as (u & _ & E). injection E as <-. cbn [mg_patch].
    apply (deref_loop_keeps m (Copy Dict a n) eq_refl _ _ _ _ (proj1 (Forall_map snd op_ok (number 0 ops)) ltac:(rewrite number_snd; now apply good_ok)) E1). right. now rewrite number_snd. }
  destruct (applies_extract _ _ _ _ _ _ HA' HR' (good_ok _ Hg')) as [HE' Hrun']. unfold merger_merge.
  rewrite contigb by (try (now apply pls_good in P); exact C). replace (debug_assert_ m true) with (@Ok unit tt) by (destruct m; reflexivity). cbn [bind].
  rewrite HE'. cbn [bind]. rewrite stats_fold by now apply good_ok. cbn [st_copy_bytes stats_new]. destruct (copy_bytes_zero _ Hg') as [Hb0 Hb1].
  assert (HP : exists pr, (if 0 + 2 * bytes_of is_copy ops' >? 0 then deref_copy_o m (number 0 ops') else Ok (number 0 ops')) = Ok pr /\
    contiguous 0 pr /\ Forall (in_place src mid') pr /\ slen pr = zlen mid').
  { destruct (0 + 2 * bytes_of is_copy ops' >? 0) eqn:Ec.
    - destruct (deref_spec m src ops' mid' ltac:(lia) ltac:(lia) Hg' Hrun') as (r & E1 & C1 & P1 & N1 & L1 & _). exists r. auto.
    - exists (number 0 ops'). split; [reflexivity|]. split; [apply number_contig|]. destruct (run_number src ops' [] mid' Hg' Hrun') as [P1 Z1]. rewrite (@zlen_nil Z) in *.
      split; [exact P1|]. rewrite slen_number. lia. }
  destruct HP as (pr & -> & C1 & P1 & L1). cbn [bind]. rewrite X. rewrite (merge_loop_panic m src mid' (mg_patch g) pr); [reflexivity|lia|lia|exact C1|exact P1|exact L1| |].
  - apply Forall_forall. intros i Hi. apply find_mergeable_in in Hi as (q & a0 & n0 & Hi & Hn). rewrite Z.sub_0_r in Hn. split; [lia|]. exists q, a0, n0. split; [exact Hn|].
    apply pls_good in P. rewrite Forall_forall in P. exact (P _ (nth_error_In _ _ Hn)).
  - apply in_map_iff in Hin' as ([q o] & Eo & Hin'). cbn [snd] in Eo. subst o. apply In_nth_error in Hin' as (i & Hi). apply Exists_exists. exists (Z.of_nat i). split.
    + apply find_mergeable_in. exists q, a, n. split; [lia|]. rewrite Z.sub_0_r, Nat2Z.id. exact Hi.
    + exists q, a, n. rewrite Nat2Z.id. auto.
Qed.
