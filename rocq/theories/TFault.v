(** Properties C82, C83: I/O failures while a patch is applied, and applying again. *)
From Verif Require Import Base Spec MCommon MWriter MReader MDecoder MMerger MFault SpecApi SpecMerge PBase PStream PDecoder PPatch PRobust PMerge PMerge3 PMerge4 PTrans TApply TEncode TMerge.
Ltac Zify.zify_post_hook ::= idtac.
Arguments Z.add : simpl never.
Arguments Z.sub : simpl never.
Arguments Z.pow : simpl never.

(** ** Operations *)
(** [x] is [out], or [out] with something behind it *)
Definition extends (out x : list Z) : Prop := exists y, x = out ++ y.
Lemma extends_refl x : extends x x. Proof. exists []. now rewrite app_nil_r. Qed.
Lemma extends_trans a b c : extends a b -> extends b c -> extends a c.
Proof. intros (y & ->) (z & ->). exists (y ++ z). now rewrite app_assoc. Qed.

(** Fault-free: the sink always holds an output written over the old contents. *)
Lemma apply_ops_over dict old : forall ops out, Forall op_nonneg ops ->
  exists out' p' r, apply_ops_loop dict ops (mkSink (over out old) (zlen out)) (zlen out) = (mkSink (over out' old) p', zlen out', r) /\ extends out out' /\ (r = Ok tt -> p' = zlen out').
Proof.
  induction ops as [|x ops IH]; intros out Hn; [exists out, (zlen out), (Ok tt); repeat split; apply extends_refl|]. apply Forall_cons_iff in Hn as [Hx Hn].
  assert (K : forall b n, zlen b = n -> exists out' p' r, apply_ops_loop dict ops (sink_write (mkSink (over out old) (zlen out)) b) (zlen out + n) = (mkSink (over out' old) p', zlen out', r) /\ extends out out' /\ (r = Ok tt -> p' = zlen out')).
  { intros b n Hb. rewrite sink_write_over. rewrite <- Hb, <- zlen_app. destruct (IH (out ++ b) Hn) as (o' & p' & r & E & X & P). exists o', p', r. split; [exact E|]. split; [|exact P].
    eapply extends_trans; [|exact X]. now exists b. }
  assert (S : forall r, r <> Ok tt -> exists out' p' r', (mkSink (over out old) (zlen out), zlen out, r) = (mkSink (over out' old) p', zlen out', r') /\ extends out out' /\ (r' = Ok tt -> p' = zlen out')).
  { intros r Hr. exists out, (zlen out), r. split; [reflexivity|]. split; [apply extends_refl|reflexivity]. }
  destruct x as [bs|b n|[] a n]; cbn [apply_ops_loop] in *.
  - apply K. reflexivity.
  - apply K. rewrite zlen_rep. cbn in Hx. lia.
  - destruct dict as [d|]; [|apply S; discriminate]. destruct Hx as [Ha Hl]. rewrite read_at_spec by assumption. destruct (in_range d a n) eqn:E; [|apply S; discriminate]. apply K. now apply in_range_sub_len.
  - destruct Hx as [Ha Hl]. cbn [sbuf]. rewrite read_at_spec by assumption. destruct (in_range (over out old) a n) eqn:E; [|apply S; discriminate]. unfold sink_seek. cbn [sbuf]. apply K. now apply in_range_sub_len.
Qed.
(** With a failure: the fault-free result, or an output on the way to it. *)
Lemma fl_ops_spec part dict old : forall ops out q, Forall op_nonneg ops ->
  match fl_ops part dict ops (mkSink (over out old) (zlen out)) (zlen out) q with
  | (s, pos, _, Some r) => apply_ops_loop dict ops (mkSink (over out old) (zlen out)) (zlen out) = (s, pos, r)
  | (s, _, _, None) => exists o1 p1 out' p' r', s = mkSink (over o1 old) p1 /\
      apply_ops_loop dict ops (mkSink (over out old) (zlen out)) (zlen out) = (mkSink (over out' old) p', zlen out', r') /\ extends o1 out'
  end.
Proof.
  induction ops as [|x ops IH]; intros out q Hn; [reflexivity|]. pose proof (apply_ops_over dict old (x :: ops) out Hn) as Hall. apply Forall_cons_iff in Hn as [Hx Hn].
  (* stopping with the output as it is *)
  assert (S : forall p1, exists o1 p1' out' p' r', mkSink (over out old) p1 = mkSink (over o1 old) p1' /\
      apply_ops_loop dict (x :: ops) (mkSink (over out old) (zlen out)) (zlen out) = (mkSink (over out' old) p', zlen out', r') /\ extends o1 out').
  { intro p1. destruct Hall as (o' & p' & r & E & X & _). exists out, p1, o', p', r. auto. }
  assert (K : forall b n, zlen b = n -> apply_ops_loop dict (x :: ops) (mkSink (over out old) (zlen out)) (zlen out) = apply_ops_loop dict ops (sink_write (mkSink (over out old) (zlen out)) b) (zlen out + n) ->
    forall q, match fw part (mkSink (over out old) (zlen out)) (zlen out) q b (fun s q => fl_ops part dict ops s (zlen out + n) q) with
    | (s, pos, _, Some r) => apply_ops_loop dict (x :: ops) (mkSink (over out old) (zlen out)) (zlen out) = (s, pos, r)
    | (s, _, _, None) => exists o1 p1 out' p' r', s = mkSink (over o1 old) p1 /\
        apply_ops_loop dict (x :: ops) (mkSink (over out old) (zlen out)) (zlen out) = (mkSink (over out' old) p', zlen out', r') /\ extends o1 out'
    end).
  { intros b n Hb E q0. rewrite E. unfold fw. rewrite !sink_write_over. rewrite <- Hb, <- zlen_app. destruct q0 as [|q0]; [|apply IH; exact Hn].
    destruct (apply_ops_over dict old ops (out ++ b) Hn) as (o' & p' & r & E' & (y & X) & _). exists (out ++ take part b), (zlen (out ++ take part b)), o', p', r.
    split; [reflexivity|]. split; [exact E'|]. exists (drop part b ++ y). rewrite X, <- !app_assoc. f_equal. rewrite app_assoc. f_equal. unfold take, drop. symmetry. apply firstn_skipn. }
  destruct x as [bs|b n|[] a n]; cbn [fl_ops] in *.
  - apply K; reflexivity.
  - apply K; [rewrite zlen_rep; cbn in Hx; lia|reflexivity].
  - destruct dict as [d|]; [|reflexivity]. destruct q as [|[|q]]; [apply S|apply S|]. destruct Hx as [Ha Hl]. rewrite read_at_spec by assumption. destruct (in_range d a n) eqn:E; [|cbn [apply_ops_loop]; rewrite read_at_spec, E by assumption; reflexivity].
    apply K; [now apply in_range_sub_len|]. cbn [apply_ops_loop]. rewrite read_at_spec, E by assumption. reflexivity.
  - destruct q as [|[|q]]; [apply S|apply S|]. destruct Hx as [Ha Hl]. cbn [sbuf]. rewrite read_at_spec by assumption.
    destruct (in_range (over out old) a n) eqn:E; [|cbn [apply_ops_loop sbuf]; rewrite read_at_spec, E by assumption; reflexivity]. destruct q as [|q]; [apply S|].
    unfold sink_seek. cbn [sbuf]. apply K; [now apply in_range_sub_len|]. cbn [apply_ops_loop sbuf]. rewrite read_at_spec, E by assumption. reflexivity.
Qed.

(** ** Sections *)
Lemma over_inj a b old : over a old = over b old -> zlen a = zlen b -> a = b.
Proof. unfold over. intros E Hz. rewrite Hz in E. now apply app_inv_tail in E. Qed.
Lemma apply_loop_over next dict old : next_typed_ok next -> forall k bs out p, Forall is_byte bs ->
  exists out' p' r, apply_loop next k dict bs (mkSink (over out old) p) (zlen out) = (mkSink (over out' old) p', r) /\ extends out out'.
Proof.
  intros Ht. induction k as [|k IH]; intros bs out p Hb; cbn [apply_loop]; [exists out, p, Diverge; split; [reflexivity|apply extends_refl]|].
  destruct (next bs) as [[[ops h] r]|e| |] eqn:E; [|exists out, p; eexists; split; [reflexivity|apply extends_refl]..]. destruct (Ht _ _ _ _ Hb E) as [Hok Hr].
  unfold apply_ops, sink_seek. cbn [sbuf]. destruct (apply_ops_over dict old ops out (ops_ok_nonneg _ Hok)) as (o1 & p1 & rr & E1 & X1 & _). rewrite E1.
  destruct rr as [[]|e| |]; [|exists o1, p1; eexists; split; [reflexivity|exact X1]..]. destruct (h_more h); [|exists o1, p1; eexists; split; [reflexivity|exact X1]].
  destruct (IH r o1 p1 Hr) as (o2 & p2 & r2 & E2 & X2). exists o2, p2, r2. split; [exact E2|]. eapply extends_trans; eassumption.
Qed.
Lemma fl_loop_spec next part dict old : next_typed_ok next -> forall k bs out p q, Forall is_byte bs ->
  match fl_loop next part k dict bs (mkSink (over out old) p) (zlen out) q with
  | (s, Some r) => (let '(s, r) := apply_loop next k dict bs (mkSink (over out old) p) (zlen out) in (s, do _ <- r; Ok tt)) = (s, r)
  | (s, None) => exists o1 p1 out' p' r', s = mkSink (over o1 old) p1 /\ apply_loop next k dict bs (mkSink (over out old) p) (zlen out) = (mkSink (over out' old) p', r') /\ extends o1 out'
  end.
Proof.
  intros Ht. induction k as [|k IH]; intros bs out p q Hb; [reflexivity|].
  assert (S : forall p1, exists o1 p1' out' p' r', mkSink (over out old) p1 = mkSink (over o1 old) p1' /\ apply_loop next (S k) dict bs (mkSink (over out old) p) (zlen out) = (mkSink (over out' old) p', r') /\ extends o1 out').
  { intro p1. destruct (apply_loop_over next dict old Ht (S k) bs out p Hb) as (o' & p' & r & E & X). exists out, p1, o', p', r. auto. }
  cbn [fl_loop]. destruct q as [|q]; [apply S|]. destruct (next bs) as [[[ops h] r]|e| |] eqn:E; [|cbn [apply_loop]; rewrite E; reflexivity..]. destruct (Ht _ _ _ _ Hb E) as [Hok Hr].
  unfold fl_apply_ops. destruct q as [|q]; [apply S|]. unfold sink_seek at 1. cbn [sbuf]. cbn [apply_loop] in *. rewrite E in *. unfold apply_ops, sink_seek in *. cbn [sbuf] in *.
  pose proof (fl_ops_spec part dict old ops out q (ops_ok_nonneg _ Hok)) as F. destruct (fl_ops part dict ops (mkSink (over out old) (zlen out)) (zlen out) q) as [[[s pos] q'] [r1|]].
  - rewrite F. destruct (apply_ops_over dict old ops out (ops_ok_nonneg _ Hok)) as (o1 & p1 & rr & E1 & X1 & _). rewrite F in E1. injection E1 as -> -> ->.
    destruct rr as [[]|e| |]; [|reflexivity..]. destruct (h_more h); [|reflexivity]. exact (IH r o1 p1 q' Hr).
  - destruct F as (o1 & p1 & o' & p' & r' & -> & E1 & X). rewrite E1. destruct (apply_ops_over dict old ops out (ops_ok_nonneg _ Hok)) as (o2 & p2 & rr & E2 & X2 & _).
    rewrite E1 in E2. injection E2 as Eo -> Ez ->. assert (o' = o2) as -> by (apply (over_inj _ _ old); assumption).
    destruct rr as [[]|e| |]; [|exists o1, p1, o2, p2; eexists; split; [reflexivity|split; [reflexivity|exact X]]..]. destruct (h_more h); [|exists o1, p1, o2, p2; eexists; split; [reflexivity|split; [reflexivity|exact X]]].
    destruct (apply_loop_over next dict old Ht k r o2 p2 Hr) as (o3 & p3 & r3 & E3 & X3). exists o1, p1, o3, p3, r3. split; [reflexivity|]. split; [exact E3|]. eapply extends_trans; eassumption.
Qed.

(** C82. Whichever I/O call fails while any bytes are applied, and however much of a failing write reaches the sink: if the failure is not met, everything is as without; if it is met, an
    error is returned (never success), and the sink holds a beginning of what applying without failure puts there, over its old contents. *)
Theorem C82_io_failure : forall m cd bytes dict old p q part, codecs_bytes cd -> Forall is_byte bytes ->
  match fl_apply_patch m cd bytes dict (mkSink old p) q part with
  | (s, Some r) => apply_patch m cd bytes dict (mkSink old p) = (s, r)
  | (s, None) => exists out1 x p1 p2, s = mkSink (out1 ++ drop (zlen out1) old) p1 /\
      fst (apply_patch m cd bytes dict (mkSink old p)) = mkSink ((out1 ++ x) ++ drop (zlen (out1 ++ x)) old) p2
  end.
Proof.
  intros m cd bytes dict old p q part Hc Hb. unfold fl_apply_patch, apply_patch.
  pose proof (fl_loop_spec (next_section m cd) part dict old (next_section_typed m cd Hc) (S (length bytes)) bytes [] p q Hb) as F. rewrite over_0 in F. change (zlen (@nil Z)) with 0 in F.
  destruct (fl_loop (next_section m cd) part (S (length bytes)) dict bytes (mkSink old p) 0 q) as [s [r|]]; [exact F|].
  destruct F as (o1 & p1 & o' & p' & r' & -> & E & (x & ->)). exists o1, x, p1, p'. rewrite E. split; reflexivity.
Qed.
(** With enough successful calls the failure is not met. *)
Theorem C82_enough_calls : forall m cd bytes dict s, exists q0, forall q part, (q0 <= q)%nat -> fl_apply_patch m cd bytes dict s q part = (fst (apply_patch m cd bytes dict s), Some (snd (apply_patch m cd bytes dict s))).
Proof.
  intros m cd bytes dict s. unfold fl_apply_patch, apply_patch.
  assert (A : forall ops s pos, exists n, forall q part, fl_ops part dict ops s pos (n + q) = (fst (apply_ops_loop dict ops s pos), q, Some (snd (apply_ops_loop dict ops s pos))) \/
      snd (apply_ops_loop dict ops s pos) <> Ok tt /\ exists q', fl_ops part dict ops s pos (n + q) = (fst (apply_ops_loop dict ops s pos), q', Some (snd (apply_ops_loop dict ops s pos)))).
  { induction ops as [|x ops IH]; intros s0 pos; [exists 0%nat; intros q part; left; reflexivity|]. destruct x as [bs|b n|[] a n]; cbn [fl_ops apply_ops_loop].
    - destruct (IH (sink_write s0 bs) (pos + zlen bs)) as (k & IHk). exists (S k). intros q part. exact (IHk q part).
    - destruct (IH (sink_write s0 (rep b n)) (pos + n)) as (k & IHk). exists (S k). intros q part. exact (IHk q part).
    - destruct dict as [d|]; [|exists 0%nat; intros q part; right; split; [discriminate|]; eexists; reflexivity].
      destruct (read_at d a n) as [b|e| |]; [|exists 2%nat; intros q part; right; split; [discriminate|]; eexists; reflexivity..].
      destruct (IH (sink_write s0 b) (pos + n)) as (k & IHk). exists (S (S (S k))). intros q part. exact (IHk q part).
    - destruct (read_at (sbuf s0) a n) as [b|e| |]; [|exists 2%nat; intros q part; right; split; [discriminate|]; eexists; reflexivity..].
      destruct (IH (sink_write (sink_seek s0 pos) b) (pos + n)) as (k & IHk). exists (S (S (S (S k)))). intros q part. exact (IHk q part). }
  assert (B : forall k bs s0 pos, exists n, forall q part, fl_loop (next_section m cd) part k dict bs s0 pos (n + q) =
      (let '(s', r) := apply_loop (next_section m cd) k dict bs s0 pos in (s', Some (do _ <- r; Ok tt)))).
  { induction k as [|k IH]; intros bs s0 pos; cbn [fl_loop apply_loop]; [exists 0%nat; reflexivity|].
    destruct (next_section m cd bs) as [[[ops h] r]|e| |]; [|exists 1%nat; reflexivity..].
    destruct (A ops (sink_seek s0 pos) pos) as (n1 & A1). unfold fl_apply_ops, apply_ops.
    destruct (apply_ops_loop dict ops (sink_seek s0 pos) pos) as [[s1 pos1] r1]. cbn [fst snd] in A1. destruct (IH r s1 pos1) as (n2 & B2). exists (S (S (n1 + n2))). intros q part. cbn [Nat.add].
    rewrite <- Nat.add_assoc. destruct (A1 (n2 + q)%nat part) as [E|(Hne & q' & E)]; rewrite E.
    - destruct r1 as [[]|e| |]; try reflexivity. destruct (h_more h); [apply B2|reflexivity].
    - destruct r1 as [[]|e| |]; try reflexivity. now elim Hne. }
  destruct (B (S (length bytes)) bytes s 0) as (n & Hn). exists n. intros q part Hq. replace q with (n + (q - n))%nat by lia. rewrite Hn.
  destruct (apply_loop (next_section m cd) (S (length bytes)) dict bytes s 0) as [s' r]. reflexivity.
Qed.

Lemma over_twice o1 x out old : (o1 ++ x) ++ drop (zlen (o1 ++ x)) old = out ++ drop (zlen out) old -> over out (over o1 old) = over out old.
Proof.
  intro E. pose proof (zlen_nonneg o1). pose proof (zlen_nonneg out). unfold over. destruct (Z.le_gt_cases (zlen o1) (zlen out)) as [L|L].
  - rewrite drop_app_r by lia. rewrite drop_drop by lia. do 2 f_equal. lia.
  - assert (E1 : o1 = out ++ take (zlen o1 - zlen out) (drop (zlen out) old)).
    { assert (T : take (zlen o1) ((o1 ++ x) ++ drop (zlen (o1 ++ x)) old) = o1) by (rewrite <- app_assoc; apply take_app; reflexivity). rewrite E in T. rewrite <- T at 1.
      apply take_app_r. lia. }
    assert (E2 : o1 ++ drop (zlen o1) old = out ++ drop (zlen out) old).
    { replace (drop (zlen o1) old) with (drop (zlen o1 - zlen out) (drop (zlen out) old)) by (rewrite drop_drop by lia; f_equal; lia).
      rewrite E1 at 1. rewrite <- app_assoc. f_equal. apply take_drop. }
    rewrite E2. f_equal. now apply drop_app.
Qed.
(** C83. After a failure the same patch can be applied again, over what the failed attempt left (and over the result of a complete one): a patch that turns [src] into [out] yields
    [out], with what the sink held originally behind it. Applying twice is applying once. *)
Theorem C83_apply_again : forall m cd patch src out old p q part, codecs_bytes cd -> codecs_shrink cd -> Forall is_byte patch -> applies m cd patch src out ->
  exists p1, apply_patch m cd patch (Some src) (fst (fl_apply_patch m cd patch (Some src) (mkSink old p) q part)) = (mkSink (out ++ drop (zlen out) old) p1, Ok tt).
Proof.
  intros m cd patch src out old p q part Hc Hsh Hb Ha.
  assert (HR : exists secs r, patch_read (next_section m cd) patch secs r /\ Forall op_ok (concat (map fst secs)) /\ run_ops src [] (concat (map fst secs)) = Some out).
  { pose proof Ha as (p0 & H). unfold apply_patch in H. destruct (apply_loop (next_section m cd) (S (length patch)) (Some src) patch (mkSink [] 0) 0) as [s' rr] eqn:E.
    injection H as -> H. destruct rr as [rest| | |]; try discriminate. destruct (apply_loop_reads _ _ _ _ _ _ _ _ E) as (secs & Hp & _). exists secs, rest. split; [exact Hp|].
    destruct (patch_read_typed m cd Hc _ _ _ Hp Hb) as [Hok _]. split; [exact Hok|]. apply (applies_extract m cd patch src out); [exact Ha|exists secs, rest; auto|exact Hok]. }
  destruct HR as (secs & r & Hp & Hok & Hrun).
  assert (Hany : forall old p, exists p1, apply_patch m cd patch (Some src) (mkSink old p) = (mkSink (out ++ drop (zlen out) old) p1, Ok tt)).
  { intros old0 p0. unfold apply_patch. pose proof (patch_read_len m cd Hsh _ _ _ Hp) as Hl.
    assert (G : forall bs secs r, patch_read (next_section m cd) bs secs r -> forall k o p o', (length secs < k)%nat -> Forall op_ok (concat (map fst secs)) -> run_ops src o (concat (map fst secs)) = Some o' ->
      exists p', apply_loop (next_section m cd) k (Some src) bs (mkSink (over o old0) p) (zlen o) = (mkSink (over o' old0) p', Ok r)).
    { clear. induction 1 as [bs ops h r E Em|bs ops h r secs r' E Em _ IH]; intros k o p o' Hk Hok Hr; (destruct k as [|k]; [lia|]); cbn [apply_loop map concat fst] in *; rewrite E.
      - rewrite app_nil_r in *. rewrite apply_ops_spec by now apply ops_ok_nonneg. rewrite (perform_old src old0 ops o o' (ops_ok_nonneg _ Hok) Hr). rewrite Em. eauto.
      - apply Forall_app in Hok as [H1 H2]. rewrite run_ops_app in Hr. destruct (run_ops src o ops) as [o1|] eqn:E1; [|discriminate].
        rewrite apply_ops_spec by now apply ops_ok_nonneg. rewrite (perform_old src old0 ops o o1 (ops_ok_nonneg _ H1) E1). rewrite Em. apply IH; [cbn in Hk; lia|exact H2|exact Hr]. }
    destruct (G _ _ _ Hp (S (length patch)) [] p0 out ltac:(lia) Hok Hrun) as (p' & E). rewrite over_0 in E. change (zlen (@nil Z)) with 0 in E. rewrite E. eauto. }
  pose proof (C82_io_failure m cd patch (Some src) old p q part Hc Hb) as F. destruct (Hany old p) as (p1 & E1). rewrite E1 in F.
  destruct (fl_apply_patch m cd patch (Some src) (mkSink old p) q part) as [s [rr|]]; cbn [fst] in *.
  - injection F as <- _. destruct (Hany (out ++ drop (zlen out) old) p1) as (p2 & E2). exists p2. rewrite E2. do 3 f_equal. now apply drop_app.
  - destruct F as (o1 & x & q1 & q2 & -> & E). injection E as E _. destruct (Hany (o1 ++ drop (zlen o1) old) q1) as (p2 & E2). exists p2. rewrite E2. do 2 f_equal.
    exact (over_twice o1 x out old (eq_sym E)).
Qed.
(** A failed attempt over an old sink: the second write stops after one byte; then the patch is applied again. *)
Example C82_example : forall m cd,
  applies m cd ex_small_patch [50; 51; 52] [1; 2; 3; 51; 52; 7; 7; 7; 7; 2; 3; 51; 52; 7] /\
  fl_apply_patch m cd ex_small_patch (Some [50; 51; 52]) (mkSink (rep 99 16) 5) 5 1 = (mkSink ([1; 2; 3; 51] ++ rep 99 12) 4, None) /\
  apply_patch m cd ex_small_patch (Some [50; 51; 52]) (mkSink ([1; 2; 3; 51] ++ rep 99 12) 4) = (mkSink [1; 2; 3; 51; 52; 7; 7; 7; 7; 2; 3; 51; 52; 7; 99; 99] 14, Ok tt).
Proof. intros m cd. split; [exists 14; destruct m; vm_compute; reflexivity|]. split; destruct m; vm_compute; reflexivity. Qed.

Print Assumptions C82_io_failure.
Print Assumptions C82_enough_calls.
Print Assumptions C83_apply_again.
