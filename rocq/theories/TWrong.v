(** Applying a patch to another source. Property C102. *)
From Verif Require Import Base Spec SpecEnc MCommon MWriter MReader MDecoder MOpMaker MTrgtMatcher MSrcMatcher MEncInner MEncode MLevels MMerger MTranscoder SpecApi SpecMerge PBase PCommon PStream PSection PWriter PDecoder PPatch PRobust PEncode PMerge3 PMerge4 PTrans TEncode TTrans TTrunc TInPlace.
Ltac Zify.zify_post_hook ::= idtac.
Arguments Z.add : simpl never.
Arguments Z.sub : simpl never.
Arguments Z.mul : simpl never.

(** ** Specification ([byte_at l i]: the byte of [l] at [i], from TInPlace.v) *)
(** All source copies of the operations lie inside [l]. *)
Definition reaches (l : list Z) (ops : list op) : Prop := forall a n, In (Copy Dict a n) ops -> 1 <= n -> a + n <= zlen l.
(** Both sources have the same bytes wherever the operations copy from. *)
Definition agree (l l' : list Z) (ops : list op) : Prop := forall a n i, In (Copy Dict a n) ops -> a <= i < a + n -> byte_at l i = byte_at l' i.
(** Where a byte of the output comes from: a byte of the patch, or a position of the source. *)
Definition value (src : list Z) (x : Z + Z) : option Z := match x with inl b => Some b | inr k => byte_at src k end.

(** ** Proofs *)
Lemma apply_perform m cd patch src ops old p : codecs_shrink cd -> reads_as m cd patch ops -> Forall op_nonneg ops ->
  apply_patch m cd patch (Some src) (mkSink old p) = let '(o, ok) := perform src old [] ops in (mkSink (over o old) (zlen o), if ok then Ok tt else Err EOF).
Proof.
  intros Hsh (secs & r & Hp & ->) Hn. unfold apply_patch. pose proof (patch_read_len m cd Hsh _ _ _ Hp) as Hl.
  assert (G : forall bs secs r, patch_read (next_section m cd) bs secs r -> forall k o p, (length secs < k)%nat -> Forall op_nonneg (concat (map fst secs)) ->
      apply_loop (next_section m cd) k (Some src) bs (mkSink (over o old) p) (zlen o) = let '(o, ok) := perform src old o (concat (map fst secs)) in (mkSink (over o old) (zlen o), if ok then Ok r else Err EOF)).
  { clear. induction 1 as [bs ops h r E Em|bs ops h r secs r' E Em _ IH]; intros k o p Hk Hok; (destruct k as [|k]; [lia|]); cbn [apply_loop map concat fst] in *; rewrite E.
    - rewrite app_nil_r in *. rewrite apply_ops_spec by exact Hok. destruct (perform src old o ops) as [o1 []]; [rewrite Em|]; reflexivity.
    - apply Forall_app in Hok as [H1 H2]. rewrite apply_ops_spec by exact H1. rewrite perform_app. destruct (perform src old o ops) as [o1 []]; [|reflexivity]. rewrite Em. apply IH; [cbn in Hk; lia|exact H2]. }
  pose proof (G _ _ _ Hp (S (length patch)) [] p ltac:(lia) Hn) as E. rewrite over_0 in E. change (zlen (@nil Z)) with 0 in E. rewrite E. destruct (perform src old [] (concat (map fst secs))) as [o []]; reflexivity.
Qed.
Lemma perform_short src old a n : 1 <= n -> 0 <= a -> zlen src < a + n -> forall ops o, In (Copy Dict a n) ops -> snd (perform src old o ops) = false.
Proof.
  intros Hn Ha Hs. induction ops as [|x ops IH]; intros o H; [destruct H|]. cbn [perform]. destruct H as [-> |H].
  - cbn [op_bytes]. unfold in_range. replace ((n =? 0) || (0 <=? a) && (a + n <=? zlen src)) with false by lia. reflexivity.
  - destruct (op_bytes src (over o old) x); [now apply IH|reflexivity].
Qed.
Lemma reach_run src src1 : forall ops o o1 out, zlen o = zlen o1 -> Forall op_nonneg ops -> reaches src1 ops -> run_ops src o ops = Some out -> exists out1, run_ops src1 o1 ops = Some out1 /\ zlen out1 = zlen out.
Proof.
  induction ops as [|x ops IH]; intros o o1 out El Hn HR E; cbn [run_ops] in *; [injection E as <-; exists o1; split; [reflexivity|lia]|].
  apply Forall_cons_iff in Hn as [Hx Hn]. destruct (op_bytes src o x) as [b|] eqn:Eb; [|discriminate]. pose proof (op_bytes_len _ _ _ _ Hx Eb) as L.
  assert (Hb : exists b1, op_bytes src1 o1 x = Some b1).
  { destruct x as [bs|c n|[] a n]; cbn [op_bytes op_nonneg] in *; try (eexists; reflexivity).
    - unfold in_range. specialize (HR a n (or_introl eq_refl)). replace ((n =? 0) || (0 <=? a) && (a + n <=? zlen src1)) with true by lia. eauto.
    - destruct (in_range o a n) eqn:R; [|discriminate]. rewrite (in_range_mono o o1 a n) by (try exact R; lia). eauto. }
  destruct Hb as (b1 & Eb1). rewrite Eb1. pose proof (op_bytes_len _ _ _ _ Hx Eb1) as L1. apply (IH (o ++ b) (o1 ++ b1) out); [rewrite !zlen_app; lia|exact Hn| |exact E].
  intros a n H. apply HR. now right.
Qed.
Lemma run_agree src src1 : forall ops o o1 out out1, zlen o = zlen o1 -> Forall op_nonneg ops -> run_ops src o ops = Some out -> run_ops src1 o1 ops = Some out1 ->
  (out1 = out <-> o1 = o /\ agree src1 src ops).
Proof.
  induction ops as [|x ops IH]; intros o o1 out out1 El Hn E E1; cbn [run_ops] in *.
  { injection E as <-. injection E1 as <-. split; [intro H; split; [exact H|intros ? ? ? []]|tauto]. }
  apply Forall_cons_iff in Hn as [Hx Hn]. destruct (op_bytes src o x) as [b|] eqn:Eb; [|discriminate]. destruct (op_bytes src1 o1 x) as [b1|] eqn:Eb1; [|discriminate].
  pose proof (op_bytes_len _ _ _ _ Hx Eb) as L. pose proof (op_bytes_len _ _ _ _ Hx Eb1) as L1.
  rewrite (IH (o ++ b) (o1 ++ b1) out out1 ltac:(rewrite !zlen_app; lia) Hn E E1).
  assert (Hb : o1 = o -> (b1 = b <-> forall a n i, x = Copy Dict a n -> a <= i < a + n -> byte_at src1 i = byte_at src i)).
  { intros ->. destruct x as [bs|c n|[] a n]; cbn [op_bytes op_nonneg op_len] in *; try (split; [intros _ a0 n0 i H; discriminate|congruence]).
    destruct (in_range src a n) eqn:R; [|discriminate]. destruct (in_range src1 a n) eqn:R1; [|discriminate]. injection Eb as <-. injection Eb1 as <-. split.
    - intros Es a0 n0 i H Hi. injection H as <- <-. assert (K : nth_error (sub src1 a n) (Z.to_nat (i - a)) = nth_error (sub src a n) (Z.to_nat (i - a))) by now rewrite Es.
      rewrite !nth_sub in K by lia. now replace (a + (i - a)) with i in K by lia.
    - intro H. apply nth_ext_z; [lia|]. intros k Hk. rewrite !nth_sub by lia. apply (H a n); [reflexivity|lia]. }
  split.
  - intros [H1 H2]. apply app_same_len in H1 as [-> ->]; [|lia]. split; [reflexivity|]. intros a n i [-> |Hi]; [now apply (proj1 (Hb eq_refl) eq_refl)|now apply H2].
  - intros [-> H]. assert (b1 = b) as -> by (apply Hb; [reflexivity|]; intros a n i -> Hi; apply (H a n); [now left|exact Hi]). split; [reflexivity|]. intros a n i Hi. apply H. now right.
Qed.

(** ** C102 *)
(** A patch for [src], applied to any other source: an error exactly if the other source is too short for some copy; otherwise it succeeds, the output has the right length, and it is right exactly
    if the other source has the right bytes at all places that are copied. Nothing else of the source matters and nothing else is noticed. *)
Theorem C102_other_source : forall m cd patch src out ops other old p, codecs_bytes cd -> codecs_shrink cd -> Forall is_byte patch -> applies m cd patch src out -> reads_as m cd patch ops ->
  (~ reaches other ops -> snd (apply_patch m cd patch (Some other) (mkSink old p)) = Err EOF) /\
  (reaches other ops -> exists res, apply_patch m cd patch (Some other) (mkSink old p) = (mkSink (res ++ drop (zlen res) old) (zlen res), Ok tt) /\ zlen res = zlen out /\
    (res = out <-> agree other src ops)).
Proof.
  intros m cd patch src out ops other old p Hc Hsh Hb Ha HR. pose proof HR as (secs & r & Hp & Eo). destruct (patch_read_typed m cd Hc _ _ _ Hp Hb) as [Hok _]. rewrite <- Eo in Hok. clear secs r Hp Eo.
  destruct (applies_extract m cd patch src out _ Ha HR Hok) as [_ Hrun]. pose proof (ops_ok_nonneg _ Hok) as Hn. rewrite (apply_perform m cd patch other ops old p Hsh HR Hn). split.
  - intro N. assert (X : exists a n, In (Copy Dict a n) ops /\ 1 <= n /\ zlen other < a + n).
    { assert (D : forall ops, (exists a n, In (Copy Dict a n) ops /\ 1 <= n /\ zlen other < a + n) \/ reaches other ops); [|destruct (D ops); [assumption|contradiction]].
      clear. induction ops as [|x ops IH]; [right; intros a n []|]. destruct IH as [(a & n & H)|H]; [left; exists a, n; split; [right|]; apply H|].
      destruct x as [bs|c n|[] a n]; try (right; intros a0 n0 [E|E]; [discriminate|now apply H]).
      destruct (Z_lt_ge_dec n 1); [|destruct (Z_lt_ge_dec (zlen other) (a + n))].
      - right. intros a0 n0 [E|E] Hn0; [injection E as <- <-; lia|now apply H].
      - left. exists a, n. split; [now left|lia].
      - right. intros a0 n0 [E|E] Hn0; [injection E as <- <-; lia|now apply H]. }
    destruct X as (a & n & Hi & H1 & H2). pose proof (proj1 (Forall_forall _ _) Hn _ Hi) as [Ha0 _]. pose proof (perform_short other old a n H1 Ha0 H2 ops [] Hi) as F.
    destruct (perform other old [] ops) as [o ok]. cbn [snd] in *. rewrite F. reflexivity.
  - intro H. destruct (reach_run src other ops [] [] out eq_refl Hn H Hrun) as (res & E & L). rewrite (perform_old _ _ _ _ _ Hn E). exists res. split; [reflexivity|]. split; [exact L|].
    rewrite (run_agree src other ops [] [] out res eq_refl Hn Hrun E). tauto.
Qed.
(** Where the bytes come from, [po] being the origins of what is written already. *)
Fixpoint origins (po : list (Z + Z)) (ops : list op) : list (Z + Z) :=
  match ops with
  | [] => po
  | x :: r => origins (po ++ match x with
      | Add bs => map inl bs
      | Run b n => rep (inl b) n
      | Copy Dict a n => map (fun k => inr (a + Z.of_nat k)) (seq 0 (Z.to_nat n))
      | Copy Output a n => sub po a n
      end) r
  end.
Lemma some_sub (l : list Z) : forall n a, (a + n <= length l)%nat -> map Some (firstn n (skipn a l)) = map (fun k => nth_error l (a + k)) (seq 0 n).
Proof.
  induction n as [|n IH]; intros a H; [reflexivity|]. rewrite seq_S, map_app. cbn [map Nat.add]. rewrite <- IH by lia.
  destruct (nth_error l (a + n)) as [x|] eqn:E; [|apply nth_error_None in E; lia]. assert (E2 : nth_error (skipn a l) n = Some x) by (rewrite nth_skip; exact E).
  apply nth_error_split in E2 as (l1 & l2 & -> & L). rewrite !firstn_app, <- L, Nat.sub_diag, firstn_all, firstn_O, app_nil_r. replace (S (length l1) - length l1)%nat with 1%nat by lia.
  rewrite (firstn_all2 (n := S (length l1)) l1) by lia. rewrite map_app. reflexivity.
Qed.
Lemma origins_value src : forall ops po o out, Forall op_nonneg ops -> run_ops src o ops = Some out -> map (value src) po = map Some o -> map (value src) (origins po ops) = map Some out.
Proof.
  induction ops as [|x ops IH]; intros po o out Hn E Hp; cbn [run_ops origins] in *; [injection E as <-; exact Hp|].
  apply Forall_cons_iff in Hn as [Hx Hn]. destruct (op_bytes src o x) as [b|] eqn:Eb; [|discriminate]. apply (IH _ (o ++ b) out Hn E). rewrite !map_app, Hp. f_equal.
  destruct x as [bs|c n|[] a n]; cbn [op_bytes op_nonneg] in *.
  - injection Eb as <-. rewrite map_map. reflexivity.
  - injection Eb as <-. unfold rep. clear. induction (Z.to_nat n) as [|k IH]; [reflexivity|]. cbn [repeat map value]. now rewrite IH.
  - destruct (in_range src a n) eqn:R; [|discriminate]. injection Eb as <-. unfold in_range in R. unfold sub, take, drop. destruct (Z.eq_dec n 0) as [-> |Hne]; [reflexivity|].
    rewrite some_sub by (unfold zlen in R; lia). rewrite map_map. apply map_ext_in. intros k Hk. apply in_seq in Hk. cbn [value]. unfold byte_at. f_equal. lia.
  - destruct (in_range o a n); [|discriminate]. injection Eb as <-. unfold sub, take, drop. rewrite <- !firstn_map, <- !skipn_map, Hp. reflexivity.
Qed.
Lemma in_sub {A} (l : list A) a n x : In x (sub l a n) -> In x l.
Proof.
  unfold sub, take, drop. intro H. rewrite <- (firstn_skipn (Z.to_nat a) l). apply in_app_iff. right. rewrite <- (firstn_skipn (Z.to_nat n) (skipn (Z.to_nat a) l)). apply in_app_iff. now left.
Qed.
Lemma origins_keep : forall ops po x, In x po -> In x (origins po ops).
Proof. induction ops as [|y ops IH]; intros po x H; [exact H|]. cbn [origins]. apply IH. apply in_app_iff. now left. Qed.
Lemma origins_source k : forall ops po, Forall op_nonneg ops -> (In (inr k) (origins po ops) <-> In (inr k) po \/ exists a n, In (Copy Dict a n) ops /\ a <= k < a + n).
Proof.
  induction ops as [|x ops IH]; intros po Hn; cbn [origins].
  { split; [now left|intros [H|(a & n & [] & _)]; exact H]. }
  apply Forall_cons_iff in Hn as [Hx Hn]. rewrite (IH _ Hn). rewrite in_app_iff. split.
  - intros [[H|H]|(a & n & H & Hk)]; [now left| |right; exists a, n; split; [now right|exact Hk]]. destruct x as [bs|c n|[] a n].
    + apply in_map_iff in H as (b & E & _). discriminate.
    + unfold rep in H. apply repeat_spec in H. discriminate.
    + apply in_map_iff in H as (j & E & Hj). apply in_seq in Hj. injection E as <-. right. exists a, n. split; [now left|]. lia.
    + left. exact (in_sub _ _ _ _ H).
  - intros [H|(a & n & [-> |H] & Hk)]; [left; now left| |right; exists a, n; auto]. left. right. apply in_map_iff. exists (Z.to_nat (k - a)). cbn [op_nonneg] in Hx. split; [f_equal; lia|apply in_seq; lia].
Qed.
(** Every byte of the output is a byte of the patch or the byte at one fixed position of the source, whatever the source contains; the positions used are exactly those the patch copies. *)
Theorem C102_provenance : forall m cd patch src out ops, codecs_bytes cd -> codecs_shrink cd -> Forall is_byte patch -> applies m cd patch src out -> reads_as m cd patch ops ->
  exists origin : list (Z + Z), zlen origin = zlen out /\ (forall k, In (inr k) origin <-> exists a n, In (Copy Dict a n) ops /\ a <= k < a + n) /\
  forall other, reaches other ops -> exists res, applies m cd patch other res /\ map Some res = map (value other) origin.
Proof.
  intros m cd patch src out ops Hc Hsh Hb Ha HR. pose proof HR as (secs & r & Hp & Eo). destruct (patch_read_typed m cd Hc _ _ _ Hp Hb) as [Hok _]. rewrite <- Eo in Hok. clear secs r Hp Eo.
  destruct (applies_extract m cd patch src out _ Ha HR Hok) as [_ Hrun]. pose proof (ops_ok_nonneg _ Hok) as Hn. exists (origins [] ops). split; [|split].
  - pose proof (origins_value src ops [] [] out Hn Hrun eq_refl) as E. apply (f_equal (@length _)) in E. rewrite !map_length in E. unfold zlen. lia.
  - intro k. rewrite (origins_source k ops [] Hn). split; [intros [[]|H]; exact H|now right].
  - intros other H. destruct (reach_run src other ops [] [] out eq_refl Hn H Hrun) as (res & E & _). exists res. split; [|symmetry; exact (origins_value other ops [] [] res Hn E eq_refl)].
    exists (zlen res). rewrite (apply_perform m cd patch other ops [] 0 Hsh HR Hn). rewrite (perform_old _ _ _ _ _ Hn E). unfold over, drop. now rewrite skipn_nil, app_nil_r.
Qed.
(** The finding: there is no check of the source. With the default configuration, a source in which one byte differs gives a wrong output, without an error; and one in which a byte that is not copied
    differs gives the right one. *)
Theorem C102_refuted : forall m cd, exists c src trgt patch other, config_default m = Ok c /\ encode m cd c (Some src) trgt = (patch, Ok tt) /\ zlen other = zlen src /\ other <> src /\
  (exists res p, apply_patch m cd patch (Some other) (mkSink [] 0) = (mkSink res p, Ok tt) /\ res <> trgt) /\
  (exists other' p, zlen other' = zlen src /\ other' <> src /\ apply_patch m cd patch (Some other') (mkSink [] 0) = (mkSink trgt p, Ok tt)).
Proof.
  intros m cd. eexists. exists (map Z.of_nat (seq 0 64)), (200 :: map Z.of_nat (seq 0 60)). eexists. exists (99 :: map Z.of_nat (seq 1 63)).
  split; [destruct m; vm_compute; reflexivity|]. split; [destruct m; vm_compute; reflexivity|]. split; [reflexivity|]. split; [discriminate|]. split.
  - eexists. eexists. split; [destruct m; vm_compute; reflexivity|vm_compute; discriminate].
  - exists (map Z.of_nat (seq 0 63) ++ [99]). eexists. split; [reflexivity|]. split; [vm_compute; discriminate|]. destruct m; vm_compute; reflexivity.
Qed.
Definition c102_patch : list Z := [0; 3; 9; 131; 9; 9; 9; 4; 6; 66; 2].
Example C102_example : forall m, codecs_bytes toy /\ codecs_shrink toy /\ reads_as m toy c102_patch [Add [9; 9; 9]; Copy Dict 3 4; Copy Output 1 2] /\
  applies m toy c102_patch [1; 2; 3; 4; 5; 6; 7; 8] [9; 9; 9; 4; 5; 6; 7; 9; 9] /\
  reaches [0; 0; 0; 40; 50; 60; 70] [Add [9; 9; 9]; Copy Dict 3 4; Copy Output 1 2] /\ applies m toy c102_patch [0; 0; 0; 40; 50; 60; 70] [9; 9; 9; 40; 50; 60; 70; 9; 9] /\
  ~ reaches [0; 0; 0; 4; 5; 6] [Add [9; 9; 9]; Copy Dict 3 4; Copy Output 1 2] /\ apply_patch m toy c102_patch (Some [0; 0; 0; 4; 5; 6]) (mkSink [] 0) = (mkSink [9; 9; 9] 3, Err EOF).
Proof.
  intro m. destruct (C101_example m) as (H1 & H2 & H3 & _). split; [exact H1|]. split; [exact H2|]. split; [exact H3|]. split; [exists 9; destruct m; vm_compute; reflexivity|]. split; [|split; [exists 9; destruct m; vm_compute; reflexivity|split]].
  - intros a n [E|[E|[E|[]]]] _; try discriminate. injection E as <- <-. vm_compute. discriminate.
  - intro H. specialize (H 3 4 (or_intror (or_introl eq_refl)) ltac:(lia)). vm_compute in H. now apply H.
  - destruct m; vm_compute; reflexivity.
Qed.
Print Assumptions C102_other_source.
Print Assumptions C102_provenance.
Print Assumptions C102_refuted.
