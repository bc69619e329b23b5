(** Applying a patch in place. Property C101. *)
From Verif Require Import Base Spec SpecEnc MCommon MWriter MReader MDecoder MOpMaker MTrgtMatcher MSrcMatcher MEncInner MEncode MMerger MTranscoder MInPlace SpecApi SpecMerge PBase PCommon PStream PSection PWriter PDecoder PPatch PRobust PEncode PMerge3 PMerge4 PTrans TEncode TTrans TTrunc TFault MLevels TOff.
Ltac Zify.zify_post_hook ::= idtac.
Arguments Z.add : simpl never.
Arguments Z.sub : simpl never.
Arguments Z.mul : simpl never.

(** ** Specification *)
Definition byte_at (l : list Z) (i : Z) : option Z := nth_error l (Z.to_nat i).
(** No copy from the source reads a byte that the new contents [out] have changed by then: before an operation, the first [ops_len before] bytes of the file are new. *)
Definition undisturbed (src out : list Z) (ops : list op) : Prop :=
  forall before a n after, ops = before ++ Copy Dict a n :: after -> forall i, a <= i < a + n -> i < ops_len before -> byte_at out i = byte_at src i.
(** Stronger, and easy to see from the operations alone: copies from the source read at or behind the place they are written to. *)
Definition forward_only (ops : list op) : Prop := forall before a n after, ops = before ++ Copy Dict a n :: after -> ops_len before <= a.

(** ** Proofs *)
Lemma nth_skip (l : list Z) : forall k i, nth_error (skipn k l) i = nth_error l (k + i).
Proof. induction l as [|x l IH]; intros [|k] i; cbn [skipn Nat.add nth_error]; try reflexivity; [now destruct i|apply IH]. Qed.
Lemma nth_first (l : list Z) : forall n i, (i < n)%nat -> nth_error (firstn n l) i = nth_error l i.
Proof. induction l as [|x l IH]; intros [|n] [|i] H; cbn [firstn nth_error]; try reflexivity; try lia. apply IH. lia. Qed.
Lemma nth_sub (l : list Z) a n k : 0 <= a -> 0 <= k < n -> nth_error (sub l a n) (Z.to_nat k) = byte_at l (a + k).
Proof. intros Ha Hk. unfold sub, take, drop, byte_at. rewrite nth_first by lia. rewrite nth_skip. f_equal. lia. Qed.
Lemma nth_ext_z (l l' : list Z) : zlen l = zlen l' -> (forall k, 0 <= k < zlen l -> nth_error l (Z.to_nat k) = nth_error l' (Z.to_nat k)) -> l = l'.
Proof.
  revert l'. induction l as [|x l IH]; intros [|y l'] E H; [reflexivity|pose proof (zlen_nonneg l'); rewrite zlen_cons, (@zlen_nil Z) in E; lia|pose proof (zlen_nonneg l); rewrite zlen_cons, (@zlen_nil Z) in E; lia|].
  rewrite !zlen_cons in *. pose proof (zlen_nonneg l).
  f_equal; [specialize (H 0 ltac:(lia)); cbn in H; congruence|]. apply IH; [lia|]. intros k Hk. specialize (H (k + 1) ltac:(lia)). replace (Z.to_nat (k + 1)) with (S (Z.to_nat k)) in H by lia. exact H.
Qed.
Lemma zlen_over (o src : list Z) : zlen (over o src) = Z.max (zlen o) (zlen src).
Proof. unfold over. rewrite zlen_app, zlen_drop_max. pose proof (zlen_nonneg o). pose proof (zlen_nonneg src). lia. Qed.
Lemma at_over (o src : list Z) i : 0 <= i -> byte_at (over o src) i = if i <? zlen o then byte_at o i else byte_at src i.
Proof.
  intro Hi. unfold byte_at, over. destruct (Z.ltb_spec i (zlen o)) as [H|H].
  - apply nth_error_app1. unfold zlen in H. lia.
  - rewrite nth_error_app2 by (unfold zlen in H; lia). unfold drop. rewrite nth_skip. f_equal. unfold zlen in *. lia.
Qed.
Lemma at_prefix (o t : list Z) i : 0 <= i < zlen o -> byte_at (o ++ t) i = byte_at o i.
Proof. intro H. unfold byte_at. apply nth_error_app1. unfold zlen in H. lia. Qed.

(** What the operations do in place, [o] being written. *)
Fixpoint ip_run (src o : list Z) (ops : list op) : option (list Z) :=
  match ops with
  | [] => Some o
  | x :: r => match op_bytes (over o src) (over o src) x with Some b => ip_run src (o ++ b) r | None => None end
  end.
Lemma in_range_mono (l l' : list Z) a n : zlen l <= zlen l' -> in_range l a n = true -> in_range l' a n = true.
Proof. unfold in_range. intros H E. lia. Qed.
Lemma ip_step src o o1 x b : zlen o = zlen o1 -> op_nonneg x -> op_bytes src o x = Some b -> exists b1, op_bytes (over o1 src) (over o1 src) x = Some b1 /\ zlen b1 = zlen b.
Proof.
  intros El Hx E. pose proof (op_bytes_len _ _ _ _ Hx E) as L. destruct x as [bs|c n|[] a n]; cbn [op_bytes] in *; try (eexists; split; [reflexivity|]; congruence).
  - destruct (in_range src a n) eqn:R; [|discriminate]. assert (R1 : in_range (over o1 src) a n = true) by (eapply in_range_mono; [|exact R]; rewrite zlen_over; lia).
    rewrite R1. eexists. split; [reflexivity|]. rewrite L. cbn [op_len]. apply in_range_sub_len; [apply Hx|exact R1].
  - destruct (in_range o a n) eqn:R; [|discriminate]. assert (R1 : in_range (over o1 src) a n = true) by (eapply in_range_mono; [|exact R]; rewrite zlen_over; lia).
    rewrite R1. eexists. split; [reflexivity|]. rewrite L. cbn [op_len]. apply in_range_sub_len; [apply Hx|exact R1].
Qed.
Lemma ip_run_ok src : forall ops o o1 out, zlen o = zlen o1 -> Forall op_nonneg ops -> run_ops src o ops = Some out -> exists out1, ip_run src o1 ops = Some out1 /\ zlen out1 = zlen out /\ exists t, out1 = o1 ++ t.
Proof.
  induction ops as [|x ops IH]; intros o o1 out El Hn E; cbn [run_ops ip_run] in *.
  - injection E as <-. exists o1. split; [reflexivity|]. split; [lia|]. exists []. now rewrite app_nil_r.
  - apply Forall_cons_iff in Hn as [Hx Hn]. destruct (op_bytes src o x) as [b|] eqn:Eb; [|discriminate]. destruct (ip_step src o o1 x b El Hx Eb) as (b1 & -> & L).
    destruct (IH (o ++ b) (o1 ++ b1) out ltac:(rewrite !zlen_app; lia) Hn E) as (out1 & E1 & L1 & t & ->). exists ((o1 ++ b1) ++ t). split; [exact E1|]. split; [exact L1|]. exists (b1 ++ t). now rewrite app_assoc.
Qed.
Lemma app_same_len (a b c d : list Z) : zlen a = zlen b -> a ++ c = b ++ d -> a = b /\ c = d.
Proof.
  revert b. induction a as [|x a IH]; intros [|y b] H E; rewrite ?zlen_cons, ?(@zlen_nil Z) in H; [auto|pose proof (zlen_nonneg b); lia|pose proof (zlen_nonneg a); lia|].
  cbn [app] in E. injection E as -> E. destruct (IH b ltac:(lia) E) as [-> ->]. auto.
Qed.
Lemma ip_run_iff src : forall ops o out out1, Forall op_nonneg ops -> run_ops src o ops = Some out -> ip_run src o ops = Some out1 ->
  (out1 = out <-> forall before a n after, ops = before ++ Copy Dict a n :: after -> forall i, a <= i < a + n -> i < zlen o + ops_len before -> byte_at out i = byte_at src i).
Proof.
  induction ops as [|x ops IH]; intros o out out1 Hn E E1; cbn [run_ops ip_run] in *.
  { injection E as <-. injection E1 as <-. split; [|reflexivity]. intros _ before a n after H. destruct before; discriminate. }
  apply Forall_cons_iff in Hn as [Hx Hn]. destruct (op_bytes src o x) as [b|] eqn:Eb; [|discriminate]. destruct (ip_step src o o x b eq_refl Hx Eb) as (b1 & Eb1 & L). rewrite Eb1 in E1.
  destruct (run_ops_prefix _ _ _ _ E) as (t & Et).
  assert (Ht1 : exists t1, out1 = (o ++ b1) ++ t1).
  { destruct (ip_run_ok src ops (o ++ b) (o ++ b1) out ltac:(rewrite !zlen_app; lia) Hn E) as (y & Ey & _ & t1 & Et1). rewrite E1 in Ey. injection Ey as ->. eauto. }
  destruct Ht1 as (t1 & Et1).
  assert (Hb : b1 = b <-> forall a n, x = Copy Dict a n -> forall i, a <= i < a + n -> i < zlen o -> byte_at out i = byte_at src i).
  { destruct x as [bs|c n|[] a n]; cbn [op_bytes op_nonneg] in *.
    - split; [intros _ a n H; discriminate|congruence].
    - split; [intros _ a n0 H; discriminate|congruence].
    - destruct (in_range src a n) eqn:R; [|discriminate]. destruct (in_range (over o src) a n) eqn:R1; [|discriminate]. injection Eb as <-. injection Eb1 as <-.
      destruct Hx as [Ha Hl]. split.
      + intros Es a0 n0 H i Hi Ho. injection H as <- <-. assert (K : nth_error (sub (over o src) a n) (Z.to_nat (i - a)) = nth_error (sub src a n) (Z.to_nat (i - a))) by now rewrite Es.
        rewrite !nth_sub in K by lia. replace (a + (i - a)) with i in K by lia. rewrite at_over in K by lia. destruct (Z.ltb_spec i (zlen o)); [|lia]. rewrite Et, <- app_assoc, at_prefix by lia. exact K.
      + intro H. specialize (H a n eq_refl). apply nth_ext_z; [exact L|]. rewrite in_range_sub_len by assumption. intros k Hk. rewrite !nth_sub by lia. rewrite at_over by lia.
        destruct (Z.ltb_spec (a + k) (zlen o)) as [A|A]; [|reflexivity]. rewrite <- (H (a + k)) by lia. rewrite Et, <- app_assoc, at_prefix by lia. reflexivity.
    - split; [intros _ a0 n0 H; discriminate|]. intros _. destruct (in_range o a n) eqn:R; [|discriminate]. destruct (in_range (over o src) a n) eqn:R1; [|discriminate]. injection Eb as <-. injection Eb1 as <-.
      destruct Hx as [Ha Hl]. apply nth_ext_z; [exact L|]. rewrite in_range_sub_len by assumption. intros k Hk. rewrite !nth_sub by lia. rewrite at_over by lia.
      unfold in_range in R. destruct (Z.ltb_spec (a + k) (zlen o)); [reflexivity|lia]. }
  assert (Hc : out1 = out <-> b1 = b /\ out1 = out).
  { split; [|tauto]. intro H. split; [|exact H]. rewrite Et, Et1, <- !app_assoc in H. apply app_same_len in H as [_ H]; [|reflexivity]. apply app_same_len in H as [H _]; [exact H|exact L]. }
  rewrite Hc. clear Hc. split.
  - intros [-> Ho] before a n after H i Hi Hlt. destruct before as [|y before]; cbn [app] in H.
    + injection H as -> ->. apply (proj1 Hb eq_refl a n eq_refl i Hi). cbn in Hlt. lia.
    + injection H as <- H. apply (proj1 (IH (o ++ b) out out1 Hn E E1) Ho before a n after H i Hi). rewrite zlen_app, (op_bytes_len _ _ _ _ Hx Eb). rewrite ops_len_cons in Hlt. lia.
  - intro H. assert (b1 = b) as ->.
    { apply Hb. intros a n -> i Hi Ho. apply (H [] a n ops eq_refl i Hi). cbn. lia. }
    split; [reflexivity|]. apply (IH (o ++ b) out out1 Hn E E1). intros before a n after -> i Hi Hlt. apply (H (x :: before) a n after eq_refl i Hi).
    rewrite zlen_app, (op_bytes_len _ _ _ _ Hx Eb) in Hlt. rewrite ops_len_cons. lia.
Qed.
Lemma ip_run_app src : forall l1 l2 o, ip_run src o (l1 ++ l2) = match ip_run src o l1 with Some o1 => ip_run src o1 l2 | None => None end.
Proof. induction l1 as [|x l1 IH]; intros l2 o; [reflexivity|]. cbn [app ip_run]. destruct (op_bytes (over o src) (over o src) x); [apply IH|reflexivity]. Qed.
Lemma ip_ops_spec src : forall ops o o1, Forall op_nonneg ops -> ip_run src o ops = Some o1 ->
  ip_ops_loop ops (mkSink (over o src) (zlen o)) (zlen o) = (mkSink (over o1 src) (zlen o1), zlen o1, Ok tt).
Proof.
  induction ops as [|x ops IH]; intros o o1 Hn E; cbn [ip_run ip_ops_loop] in *; [injection E as <-; reflexivity|].
  apply Forall_cons_iff in Hn as [Hx Hn]. destruct (op_bytes (over o src) (over o src) x) as [b|] eqn:Eb; [|discriminate]. pose proof (op_bytes_len _ _ _ _ Hx Eb) as L.
  specialize (IH (o ++ b) o1 Hn E). rewrite zlen_app in IH. destruct x as [bs|c n|[] a n]; cbn [op_bytes op_len op_nonneg sbuf] in *.
  - injection Eb as <-. rewrite sink_write_over, zlen_app. exact IH.
  - injection Eb as <-. rewrite sink_write_over, zlen_app, L in *. exact IH.
  - rewrite read_at_spec by apply Hx. destruct (in_range (over o src) a n); [|discriminate]. injection Eb as <-. rewrite sink_write_over, zlen_app, L in *. exact IH.
  - rewrite read_at_spec by apply Hx. destruct (in_range (over o src) a n); [|discriminate]. injection Eb as <-. unfold sink_seek. cbn [sbuf]. rewrite sink_write_over, zlen_app, L in *. exact IH.
Qed.
Lemma ip_loop_spec next src : forall bs secs r, patch_read next bs secs r -> forall k o p o1, (length secs < k)%nat -> Forall op_nonneg (concat (map fst secs)) -> ip_run src o (concat (map fst secs)) = Some o1 ->
  ip_loop next k bs (mkSink (over o src) p) (zlen o) = (mkSink (over o1 src) (zlen o1), Ok r).
Proof.
  induction 1 as [bs ops h r E Em|bs ops h r secs r' E Em _ IH]; intros k o p o1 Hk Hok Hr; (destruct k as [|k]; [lia|]); cbn [ip_loop map concat fst] in *; rewrite E; unfold ip_apply_ops, sink_seek; cbn [sbuf].
  - rewrite app_nil_r in *. rewrite (ip_ops_spec src ops o o1 Hok Hr), Em. reflexivity.
  - apply Forall_app in Hok as [H1 H2]. rewrite ip_run_app in Hr. destruct (ip_run src o ops) as [o2|] eqn:E1; [|discriminate].
    rewrite (ip_ops_spec src ops o o2 H1 E1), Em. apply IH; [cbn in Hk; lia|exact H2|exact Hr].
Qed.

(** ** C101 *)
(** A patch that turns [src] into [out], applied in place to a file with the contents [src]: it always succeeds, what is written has the length of [out], and it is [out] exactly if no copy reads a
    changed byte. Behind it remains the rest of [src] (the file is not shortened). *)
Theorem C101_in_place : forall m cd patch src out ops p, codecs_bytes cd -> codecs_shrink cd -> Forall is_byte patch -> applies m cd patch src out -> reads_as m cd patch ops ->
  exists new, ip_apply_patch m cd patch (mkSink src p) = (mkSink (new ++ drop (zlen new) src) (zlen new), Ok tt) /\ zlen new = zlen out /\ (new = out <-> undisturbed src out ops).
Proof.
  intros m cd patch src out ops p Hc Hsh Hb Ha HR. pose proof HR as (secs & r & Hp & ->). destruct (patch_read_typed m cd Hc _ _ _ Hp Hb) as [Hok _].
  destruct (applies_extract m cd patch src out _ Ha HR Hok) as [_ Hrun]. pose proof (ops_ok_nonneg _ Hok) as Hn.
  destruct (ip_run_ok src _ [] [] out eq_refl Hn Hrun) as (new & E & L & _). exists new. split; [|split; [exact L|]].
  - unfold ip_apply_patch. pose proof (patch_read_len m cd Hsh _ _ _ Hp) as Hl. pose proof (ip_loop_spec _ src _ _ _ Hp (S (length patch)) [] p new ltac:(lia) Hn E) as G.
    rewrite over_0 in G. change (zlen (@nil Z)) with 0 in G. rewrite G. reflexivity.
  - rewrite (ip_run_iff src _ [] out new Hn Hrun E). unfold undisturbed. change (zlen (@nil Z)) with 0. split; intros H before a n after E1 i Hi Hlt; apply (H before a n after E1 i Hi); lia.
Qed.
(** Patches whose source copies never look back can always be applied in place; so can patches without source copies. *)
Theorem C101_forward_only : forall m cd patch src out ops p, codecs_bytes cd -> codecs_shrink cd -> Forall is_byte patch -> applies m cd patch src out -> reads_as m cd patch ops -> forward_only ops ->
  ip_apply_patch m cd patch (mkSink src p) = (mkSink (out ++ drop (zlen out) src) (zlen out), Ok tt).
Proof.
  intros m cd patch src out ops p Hc Hsh Hb Ha HR Hf. destruct (C101_in_place m cd patch src out ops p Hc Hsh Hb Ha HR) as (new & E & _ & I). 
  rewrite (proj2 I) in E; [exact E|]. intros before a n after E1 i Hi Hlt. specialize (Hf before a n after E1). lia.
Qed.
(** In place, copies from the source are copies from the sink. *)
Definition as_output (o : op) : op := match o with Copy _ a n => Copy Output a n | _ => o end.
Lemma ip_ops_output : forall ops s pos, spos s = pos -> Forall op_nonneg ops -> ip_ops_loop ops s pos = apply_ops_loop None (map as_output ops) s pos.
Proof.
  induction ops as [|x ops IH]; intros s pos Hs Hn; [reflexivity|]. apply Forall_cons_iff in Hn as [Hx Hn]. destruct x as [bs|c n|[] a n]; cbn [ip_ops_loop map as_output apply_ops_loop op_nonneg] in *.
  - apply IH; [cbn [sink_write spos]; lia|exact Hn].
  - apply IH; [cbn [sink_write spos]; rewrite zlen_rep; lia|exact Hn].
  - assert (E : sink_seek s pos = s) by (destruct s; cbn in *; subst; reflexivity). rewrite E. rewrite read_at_spec by apply Hx. destruct (in_range (sbuf s) a n) eqn:R; [|reflexivity].
    apply IH; [cbn [sink_write spos]; rewrite in_range_sub_len by tauto; lia|exact Hn].
  - rewrite read_at_spec by apply Hx. destruct (in_range (sbuf s) a n) eqn:R; [|reflexivity]. apply IH; [cbn [sink_write sink_seek spos]; rewrite in_range_sub_len by tauto; lia|exact Hn].
Qed.
Definition next_output (next : list Z -> res (list op * header * list Z)) (bs : list Z) : res (list op * header * list Z) := do (ops, h, r) <- next bs; Ok (map as_output ops, h, r).
Lemma patch_read_output next : forall bs secs r, patch_read next bs secs r -> patch_read (next_output next) bs (map (fun s => (map as_output (fst s), snd s)) secs) r.
Proof.
  induction 1 as [bs ops h r E Em|bs ops h r secs r' E Em _ IH]; cbn [map fst snd].
  - apply pr_last; [unfold next_output; rewrite E; reflexivity|exact Em].
  - eapply pr_more; [unfold next_output; rewrite E; reflexivity|exact Em|exact IH].
Qed.
Lemma ip_loop_output next : forall bs secs r, patch_read next bs secs r -> forall k s pos, Forall op_nonneg (concat (map fst secs)) -> ip_loop next k bs s pos = apply_loop (next_output next) k None bs s pos.
Proof.
  induction 1 as [bs ops h r E Em|bs ops h r secs r' E Em _ IH]; intros k s pos Hok; (destruct k as [|k]; [reflexivity|]); cbn [ip_loop apply_loop map concat fst] in *; unfold next_output at 1; rewrite E; cbn [bind];
    unfold ip_apply_ops, apply_ops.
  - rewrite app_nil_r in *. rewrite ip_ops_output by (try exact Hok; reflexivity). destruct (apply_ops_loop None (map as_output ops) (sink_seek s pos) pos) as [[s1 p1] [[]|e| |]]; try reflexivity. rewrite Em. reflexivity.
  - apply Forall_app in Hok as [H1 H2]. rewrite ip_ops_output by (try exact H1; reflexivity). destruct (apply_ops_loop None (map as_output ops) (sink_seek s pos) pos) as [[s1 p1] [[]|e| |]]; try reflexivity. rewrite Em. apply IH. exact H2.
Qed.
Lemma atoms_output ops : atoms (map as_output ops) = map (fun a : Z + csrc * Z * Z => match a with inl b => inl b | inr (_, a, n) => inr (Output, a, n) end) (atoms ops).
Proof.
  unfold atoms. induction ops as [|x ops IH]; [reflexivity|]. cbn [map flat_map]. rewrite IH, map_app. f_equal. destruct x as [bs|c n|s a n]; cbn [as_output map]; rewrite ?map_map; reflexivity.
Qed.
Lemma ip_atoms m cd patch old p secs r : codecs_shrink cd -> patch_read (next_section m cd) patch secs r -> Forall op_nonneg (concat (map fst secs)) ->
  ip_apply_patch m cd patch (mkSink old p) = let '(out, rr) := eperf None old [] (atoms (map as_output (concat (map fst secs)))) in (mkSink (over out old) (zlen out), rr).
Proof.
  intros Hsh Hp Hn. unfold ip_apply_patch. pose proof (patch_read_len m cd Hsh _ _ _ Hp) as Hl. rewrite (ip_loop_output _ _ _ _ Hp) by exact Hn.
  assert (Hcat : concat (map fst (map (fun s : list op * header => (map as_output (fst s), snd s)) secs)) = map as_output (concat (map fst secs))).
  { clear. induction secs as [|s secs IH]; [reflexivity|]. cbn [map concat fst]. now rewrite IH, map_app. }
  assert (Hn2 : Forall op_nonneg (map as_output (concat (map fst secs)))).
  { apply Forall_map. eapply Forall_impl; [|exact Hn]. intros [bs|c n|s a n]; exact (fun H => H). }
  pose proof (apply_loop_atoms (next_output (next_section m cd)) None old _ _ _ (patch_read_output _ _ _ _ Hp) (S (length patch)) p [] ltac:(rewrite map_length; lia)) as G.
  rewrite Hcat in G. specialize (G Hn2). rewrite over_0 in G. change (zlen (@nil Z)) with 0 in G. rewrite G. destruct (eperf None old [] (atoms (map as_output (concat (map fst secs))))) as [o [[]| | |]]; reflexivity.
Qed.
(** Transcoding does not change what a patch does in place, on any file. *)
Theorem C101_transcoded : forall m m' cd patch ops f sc seg b file, codecs_bytes cd -> codecs_shrink cd -> trans_in m cd patch ops -> comp_lossless cd sc (atoms ops) ->
  transcode m cd patch f sc seg = (b, Ok tt) -> ip_apply_patch m' cd b file = ip_apply_patch m cd patch file.
Proof.
  intros m m' cd patch ops f sc seg b [old p] Hc1 Hc2 Hti Hcl H. destruct (trans_good m m' cd patch ops f sc seg b Hc1 Hc2 Hti Hcl H) as (ops' & _ & A & O & _ & _ & _ & Hr).
  destruct (Hr []) as (secs & Hp & Hcat & _). rewrite app_nil_r in Hp. destruct Hti as (Hb & (secs0 & r0 & Hp0 & E0) & _).
  rewrite (ip_atoms m' cd _ old p _ _ Hc2 Hp) by (rewrite Hcat; now apply ops_ok_nonneg).
  rewrite (ip_atoms m cd _ old p _ _ Hc2 Hp0) by (apply ops_ok_nonneg; apply (patch_read_typed m cd Hc1 _ _ _ Hp0 Hb)).
  now rewrite Hcat, !atoms_output, A, E0.
Qed.
(** Without matching against the source, what encode writes can always be applied in place. *)
Theorem C101_no_source_matching : forall m m' cd c src trgt patch p, comp_lossless cd (cf_comp c) trgt -> cf_src c = None -> cf_naive c = None -> Forall is_byte trgt -> zlen trgt < 2 ^ 63 -> zlen src < 2 ^ 63 ->
  codecs_bytes cd -> codecs_shrink cd -> Forall is_byte patch -> encode m cd c (Some src) trgt = (patch, Ok tt) ->
  ip_apply_patch m' cd patch (mkSink src p) = (mkSink (trgt ++ drop (zlen trgt) src) (zlen trgt), Ok tt).
Proof.
  intros m m' cd c src trgt patch p Hcd Hs Hn Hb Ht Hsl Hc Hsh Hpb H. destruct (C87_source_not_needed m m' cd c (Some src) trgt patch Hcd Hs Hn Hb Ht H) as [(secs & Hp & Hx) _].
  apply (C101_forward_only m' cd patch src trgt (concat (map fst secs)) p Hc Hsh Hpb).
  - destruct (C31_encode_apply_roundtrip m m' cd c (Some src) trgt patch Hcd Hb Ht Hsl H [] [] 0) as (p1 & E). exists p1. rewrite app_nil_r in E. rewrite E. unfold drop. now rewrite skipn_nil, app_nil_r.
  - exists secs, []. auto.
  - intros before a n after E. exfalso. rewrite E, existsb_app in Hx. cbn [existsb is_dict_copy orb] in Hx. destruct (existsb is_dict_copy before); discriminate.
Qed.
(** The findings: with the default configuration a byte put in front of a file gives a patch that destroys the file when it is applied in place, without an error; and a patch that can be applied in
    place cannot be applied again (after a crash, say): C83 does not hold in place. *)
Theorem C101_refuted : forall m cd,
  (exists c src trgt patch new pos, config_default m = Ok c /\ encode m cd c (Some src) trgt = (patch, Ok tt) /\ applies m cd patch src trgt /\
     ip_apply_patch m cd patch (mkSink src 0) = (mkSink new pos, Ok tt) /\ zlen new = zlen trgt /\ new <> trgt) /\
  (exists patch src trgt p, applies m cd patch src trgt /\ ip_apply_patch m cd patch (mkSink src 0) = (mkSink (trgt ++ drop (zlen trgt) src) p, Ok tt) /\
     ip_apply_patch m cd patch (mkSink (trgt ++ drop (zlen trgt) src) 0) <> (mkSink (trgt ++ drop (zlen trgt) src) p, Ok tt)).
Proof.
  intros m cd. split.
  - eexists. exists (map Z.of_nat (seq 0 64)), (200 :: map Z.of_nat (seq 0 64)). eexists. eexists. eexists.
    split; [destruct m; vm_compute; reflexivity|]. split; [destruct m; vm_compute; reflexivity|]. split; [exists 65; destruct m; vm_compute; reflexivity|].
    split; [destruct m; vm_compute; reflexivity|]. split; [vm_compute; reflexivity|vm_compute; discriminate].
  - exists [0; 1; 3; 3; 2], [1; 2; 3; 4], [2; 3; 4], 3. split; [exists 3; destruct m; vm_compute; reflexivity|]. split; [destruct m; vm_compute; reflexivity|]. destruct m; vm_compute; discriminate.
Qed.
(** A patch with copies from both, that does not look back, and its transcoding; one that looks back at bytes that have not changed. *)
Example C101_example : forall m, codecs_bytes toy /\ codecs_shrink toy /\ 
  reads_as m toy [0; 3; 9; 131; 9; 9; 9; 4; 6; 66; 2] [Add [9; 9; 9]; Copy Dict 3 4; Copy Output 1 2] /\ forward_only [Add [9; 9; 9]; Copy Dict 3 4; Copy Output 1 2] /\
  applies m toy [0; 3; 9; 131; 9; 9; 9; 4; 6; 66; 2] [1; 2; 3; 4; 5; 6; 7; 8; 9; 10] [9; 9; 9; 4; 5; 6; 7; 9; 9] /\
  ip_apply_patch m toy [0; 3; 9; 131; 9; 9; 9; 4; 6; 66; 2] (mkSink [1; 2; 3; 4; 5; 6; 7; 8; 9; 10] 7) = (mkSink [9; 9; 9; 4; 5; 6; 7; 9; 9; 10] 9, Ok tt).
Proof.
  intro m. split; [exact (proj1 (proj2 (C55_example m)))|]. split; [exact (proj1 (proj2 (proj2 (C55_example m))))|]. split; [|split; [|split]].
  - eexists. exists []. split; [eapply pr_last; [destruct m; vm_compute; reflexivity|reflexivity]|reflexivity].
  - intros before a n after E. destruct before as [|x [|y [|z [|w before]]]]; cbn [app] in E; injection E; intros; subst; try discriminate; vm_compute; try discriminate.
  - exists 9. destruct m; vm_compute; reflexivity.
  - destruct m; vm_compute; reflexivity.
Qed.
Example C101_looks_back_example : forall m cd, undisturbed [5; 5; 5; 7] [5; 5; 5; 5] [Add [5; 5]; Copy Dict 0 2] /\ ~ forward_only [Add [5; 5]; Copy Dict 0 2] /\
  ip_apply_patch m cd [0; 2; 4; 130; 5; 5; 2; 0] (mkSink [5; 5; 5; 7] 0) = (mkSink [5; 5; 5; 5] 4, Ok tt).
Proof.
  intros m cd. split; [|split].
  - intros before a n after E i Hi Hlt. destruct before as [|x [|y [|z before]]]; cbn [app] in E; injection E; intros; subst; try discriminate.
    assert (C : i = 0 \/ i = 1) by lia. destruct C as [-> | ->]; reflexivity.
  - intro H. specialize (H [Add [5; 5]] 0 2 [] eq_refl). vm_compute in H. now apply H.
  - destruct m; vm_compute; reflexivity.
Qed.
Print Assumptions C101_in_place.
Print Assumptions C101_forward_only.
Print Assumptions C101_transcoded.
Print Assumptions C101_no_source_matching.
Print Assumptions C101_refuted.
