(** Property theorems about smdiff-merger: C45 to C54. *)
From Verif Require Import Base Spec MCommon MWriter MReader MDecoder MTrgtMatcher MSrcMatcher MEncInner MEncode MMerger SpecApi SpecMerge PBase PStream PSection PDecoder PPatch PEncode PMerge PMerge2 PMerge3 PMerge4 TEncode.
Ltac Zify.zify_post_hook ::= idtac.

(** C45. The operation whose range contains the position, and there is only one; None exactly outside the list. *)
Theorem C45_controlling_op_exact : forall l p pos, contiguous p l -> Forall (fun x => op_good (snd x)) l ->
  (p <= pos < p + slen l /\ exists i q o, find_controlling_op l pos = Ok (Some i) /\ 0 <= i /\ nth_error l (Z.to_nat i) = Some (q, o) /\ q <= pos < q + op_len o /\
     forall j q' o', nth_error l j = Some (q', o') -> q' <= pos < q' + op_len o' -> j = Z.to_nat i) \/
  (~ (p <= pos < p + slen l) /\ find_controlling_op l pos = Ok None).
Proof.
  intros l p pos Hc Hg. destruct (find_controlling_spec l p pos Hc Hg) as (r & E & Hr). destruct r as [i|].
  - left. destruct Hr as (q & o & Hi & Hn & Hq). pose proof (contig_in_range l p q o Hc Hg (nth_error_In _ _ Hn)). split; [lia|].
    exists i, q, o. split; [exact E|]. split; [exact Hi|]. split; [exact Hn|]. split; [exact Hq|]. intros j q' o' Hj Hq'.
    destruct (Nat.lt_trichotomy j (Z.to_nat i)) as [L|[->|L]]; [|reflexivity|]; exfalso.
    + pose proof (contig_mono _ _ _ _ _ _ _ _ Hc Hg Hj Hn L). lia.
    + pose proof (contig_mono _ _ _ _ _ _ _ _ Hc Hg Hn Hj L). lia.
  - right. split; [|exact E]. intro Hp. destruct (contig_covers l p pos Hc Hg Hp) as (q & o & Hin & Hq). exact (Hr q o Hin Hq).
Qed.

(** C46. The slice starts at [start], is contiguous, [len] bytes long, every operation makes the bytes of the whole output
    at its place, and executing it after the first [start] bytes of the output extends them by [len] bytes.
    None exactly when the range exceeds the operations. *)
Theorem C46_exact_slice : forall m dict out l start len, zlen dict < 2 ^ 64 -> zlen out < 2 ^ 64 -> contiguous 0 l -> Forall (in_place dict out) l ->
  0 <= start -> 1 <= len -> start + len < 2 ^ 64 ->
  (start + len <= slen l /\ exists r, get_exact_slice m l start len = Ok (Some r) /\ contiguous start r /\ slen r = len /\ Forall (in_place dict out) r /\
     run_ops dict (take start out) (map snd r) = Some (take (start + len) out)) \/
  (slen l < start + len /\ get_exact_slice m l start len = Ok None).
Proof.
  intros m dict out l start len Hd Ho Hc Hp Hs Hl _. pose proof (exact_slice_spec m dict out l start len Hd Ho Hc Hp Hs Hl) as H.
  destruct (start + len <=? slen l) eqn:E; [left|right; split; [lia|exact H]]. split; [lia|]. destruct H as (r & H1 & C & P & L & _ & _).
  exists r. split; [exact H1|]. split; [exact C|]. split; [exact L|]. split; [exact P|]. rewrite (pl_run_to dict out r start C P Hs). now rewrite L.
Qed.

(** C47. The result does not depend on the dictionary, has no output copies, is contiguous, and produces what the operations produce, for
    every dictionary. *)
Theorem C47_deref_preserves : forall m ops d0 out0, Forall op_good ops -> zlen d0 < 2 ^ 64 -> zlen out0 < 2 ^ 64 -> run_ops d0 [] ops = Some out0 ->
  exists r, deref_copy_o m (number 0 ops) = Ok r /\ contiguous 0 r /\ Forall (fun x => op_good (snd x)) r /\ existsb is_out_copy (map snd r) = false /\
    forall d out, zlen d < 2 ^ 64 -> run_ops d [] ops = Some out -> run_ops d [] (map snd r) = Some out.
Proof.
  intros m ops d0 out0 Hg Hd Ho Hr. destruct (deref_spec m d0 ops out0 Hd Ho Hg Hr) as (r & E & C & P & N & L & D). exists r.
  split; [exact E|]. split; [exact C|]. split; [now apply pls_good in P|]. split; [now apply no_out_ops|]. intros d out Hd1 H1.
  assert (Hz : forall d o, run_ops d [] ops = Some o -> zlen o = ops_len ops).
  { intros d' o' H'. pose proof (run_ops_len _ _ _ _ (ops_ok_nonneg _ (good_ok _ Hg)) H') as Hlen. rewrite (@zlen_nil Z) in Hlen. lia. }
  eapply deref_det; [exact Hg|exact Hd1| |exact H1|exact E]. rewrite (Hz _ _ H1), <- (Hz _ _ Hr). exact Ho.
Qed.

(** C49. Merging a chain of any length, newest patch first: merging succeeds and the summary patch turns the oldest source
    into the newest target. *)
Theorem C49_merge_chain : forall m cd newest older src out, chain m cd src (newest :: older) out -> zlen src < 2 ^ 63 -> new_ok m cd newest ->
  exists r, merge_from m cd newest older = Ok r /\ Forall op_good (summary_of r) /\ run_ops src [] (summary_of r) = Some out /\ existsb is_out_copy (summary_of r) = false.
Proof.
  intros m cd newest older src out Hch Hs Hn. destruct (merge_from_spec _ _ _ _ _ _ Hch Hs Hn) as (r & E & Hr). exists r. split; [exact E|].
  exact (merged_summary _ _ _ _ Hr).
Qed.

(** C48. The case of two patches. *)
Theorem C48_merge_two : forall m cd p1 p2 src mid out, good_patch m cd p1 src mid -> good_patch m cd p2 mid out -> new_ok m cd p2 ->
  exists r, merge_from m cd p2 [p1] = Ok r /\ run_ops src [] (summary_of r) = Some out.
Proof.
  intros m cd p1 p2 src mid out H1 H2 Hn. destruct (C49_merge_chain m cd p2 [p1] src out) as (r & E & _ & Hr & _); [|apply H1|exact Hn|exists r; auto].
  apply chain_cons with mid; [|exact H2]. apply chain_cons with src; [constructor|exact H1].
Qed.

(** C50. A summary reported early has no copies: it makes the target from every dictionary (and needs none), and patches older than
    those merged so far, whatever they contain, do not change it. *)
Theorem C50_early_summary_sound : forall m cd newest older src out ops, chain m cd src (newest :: older) out -> zlen src < 2 ^ 63 -> new_ok m cd newest ->
  merge_from m cd newest older = Ok (Summary ops) ->
  existsb is_copy ops = false /\ (forall d, run_ops d [] ops = Some out) /\ forall rest, merge_from m cd newest (older ++ rest) = Ok (Summary ops).
Proof.
  intros m cd newest older src out ops Hch Hs Hn E. destruct (merge_from_spec _ _ _ _ _ _ Hch Hs Hn) as (r & E' & Hr). rewrite E in E'. injection E' as <-.
  destruct Hr as (_ & H2 & H3). split; [exact H2|]. split; [exact H3|]. intro rest. now apply merge_from_early.
Qed.

(** C51. Writing the summary always succeeds (if smdiff compression is asked for: when its settings are legal), and whenever it succeeds the written patch, applied to the
    oldest source, yields the newest target: for every section size, format and secondary compression. *)
Theorem C51_written_merge : forall m m' cd newest older src out r seg f sc, chain m cd src (newest :: older) out -> zlen src < 2 ^ 63 -> new_ok m cd newest ->
  merge_from m cd newest older = Ok r ->
  (legal_comp sc -> exists b, summary_write m cd (summary_of r) seg f sc = (b, Ok tt)) /\
  forall b, comp_lossless cd sc out -> summary_write m cd (summary_of r) seg f sc = (b, Ok tt) -> forall t, exists p',
    apply_patch m' cd (b ++ t) (Some src) (mkSink [] 0) = (mkSink out p', Ok tt).
Proof.
  intros m m' cd newest older src out r seg f sc Hch Hs Hn E. destruct (C49_merge_chain _ _ _ _ _ _ Hch Hs Hn) as (r' & E' & Hg & Hr & _).
  rewrite E in E'. injection E' as <-. pose proof (chain_bound _ _ _ _ _ Hch Hs) as Ho. split.
  - intro Hsc. eapply summary_write_ok; eassumption.
  - intros b Hc Hw t. destruct (summary_write_apply m m' cd _ src out seg f sc b t [] 0 Hc Hg Hr Ho Hs Hw) as (p' & E'). exists p'. rewrite E'.
    unfold over, drop. rewrite skipn_nil, app_nil_r. reflexivity.
Qed.

(** Patches made by encode are patches of a chain, whatever the configuration. *)
Theorem C49_encoded_patches_merge : forall m m' cd c dict trgt patch, comp_lossless cd (cf_comp c) trgt -> Forall is_byte trgt -> zlen trgt < 2 ^ 63 -> zlen dict < 2 ^ 63 ->
  encode m cd c (Some dict) trgt = (patch, Ok tt) -> good_patch m' cd patch dict trgt.
Proof.
  intros m m' cd c dict trgt patch Hcd Hb Ht Hs H.
  destruct (encode_apply m m' cd c (Some dict) trgt patch [] [] 0 Hcd Hb Ht Hs H) as (p & E). rewrite app_nil_r in E.
  split; [exists p; rewrite E; unfold drop; now rewrite skipn_nil, app_nil_r|]. split; [exact Hs|]. split; [exact Ht|].
  destruct (C34_encoder_respects_limits m m' cd c (Some dict) trgt patch Hcd Hb Ht Hs H) as (secs & Hp & Hall & _).
  exists (concat (map fst secs)). split; [exists secs, []; auto|]. apply Forall_concat, Forall_map. eapply Forall_impl; [|exact Hall]. intros s (Hs1 & _). exact Hs1.
Qed.

(** C52. In builds with debug assertions, new panics on every patch that copies from the output but not from the dictionary;
    it accepts every other one. Release builds accept all. *)
Theorem C52_new_exact : forall m cd patch src out ops, applies m cd patch src out -> reads_as m cd patch ops -> Forall op_good ops -> zlen src < 2 ^ 63 -> zlen out < 2 ^ 63 ->
  if match m with Debug => existsb is_out_copy ops && negb (existsb is_dict_copy ops) | Release => false end then merger_new m cd patch = Panic
  else exists r, merger_new m cd patch = Ok r.
Proof.
  intros m cd patch src out ops HA HR Hg Hs Ho.
  assert (HN : (m = Release \/ existsb is_copy ops = false \/ existsb is_dict_copy ops = true) -> exists r, merger_new m cd patch = Ok r).
  { intro Hm. destruct (merger_new_spec m cd patch src out ops Hs Ho HA HR Hg Hm) as (r & E & _). eauto. }
  destruct m; [|apply HN; now left]. destruct (existsb is_out_copy ops && negb (existsb is_dict_copy ops)) eqn:E.
  - apply andb_true_iff in E as [E1 E2]. apply negb_true_iff in E2. exact (new_panics cd patch src out ops Hs Ho HA HR Hg E1 E2).
  - apply HN. right. rewrite copy_split. destruct (existsb is_dict_copy ops); [now right|left]. destruct (existsb is_out_copy ops); [discriminate E|reflexivity].
Qed.
(** An instance: the patch of a repetition, which applies to anything. *)
Definition rep_patch : list Z := [0; 2; 8; 132; 1; 2; 3; 4; 68; 0].
Theorem C52_refuted : forall cd src, applies Debug cd rep_patch src [1; 2; 3; 4; 1; 2; 3; 4] /\ merger_new Debug cd rep_patch = Panic.
Proof. intros cd src. split; [exists 8; vm_compute; reflexivity|]. vm_compute. reflexivity. Qed.

(** C53, C54. Extraction succeeds on exactly the readable patches; it returns the operations of all sections in order, each with its
    output offset. In the statistics, every copy is counted twice: the copied bytes are double, the dictionary copy count is twice the dictionary copies
    plus the output copies, and the output size exceeds the real one by the copied bytes. *)
Theorem C54_extraction_exact : forall m cd patch, codecs_bytes cd -> codecs_shrink cd -> Forall is_byte patch ->
  (forall ops, reads_as m cd patch ops -> exists st, extract_patch_instructions m cd patch = Ok (number 0 ops, st)) /\
  (forall l st, extract_patch_instructions m cd patch = Ok (l, st) -> exists ops, reads_as m cd patch ops /\ l = number 0 ops /\ map snd l = ops /\ contiguous 0 l).
Proof.
  intros m cd patch Hc1 Hc2 Hb.
  assert (G : forall ops, reads_as m cd patch ops -> exists st, extract_patch_instructions m cd patch = Ok (number 0 ops, st)).
  { intros ops (secs & r & Hp & ->). eexists. apply (extract_loop_spec m cd patch secs r Hp).
    - pose proof (patch_read_len m cd Hc2 _ _ _ Hp). lia.
    - apply (patch_read_typed m cd Hc1 _ _ _ Hp Hb). }
  split; [exact G|]. intros l st E. destruct (extract_loop_reads _ _ _ _ _ _ _ _ E) as (secs & r & Hp).
  exists (concat (map fst secs)). assert (HR : reads_as m cd patch (concat (map fst secs))) by (exists secs, r; auto). split; [exact HR|].
  destruct (G _ HR) as (st' & E'). rewrite E in E'. injection E' as -> _. split; [reflexivity|]. split; [apply number_snd|apply number_contig].
Qed.
Theorem C53_statistics_exact : forall m cd patch ops, codecs_bytes cd -> codecs_shrink cd -> Forall is_byte patch -> reads_as m cd patch ops ->
  exists l st, extract_patch_instructions m cd patch = Ok (l, st) /\
    st_add_cnt st = cnt is_add ops /\ st_add_bytes st = bytes_of is_add ops /\ st_run_cnt st = cnt is_run_op ops /\ st_run_bytes st = bytes_of is_run_op ops /\
    st_copy_o_cnt st = cnt is_out_copy ops /\ st_copy_d_cnt st = 2 * cnt is_dict_copy ops + cnt is_out_copy ops /\
    st_copy_bytes st = 2 * bytes_of is_copy ops /\ st_output st = ops_len ops + bytes_of is_copy ops.
Proof.
  intros m cd patch ops Hc1 Hc2 Hb (secs & r & Hp & ->). do 2 eexists. split.
  { apply (extract_loop_spec m cd patch secs r Hp).
    - pose proof (patch_read_len m cd Hc2 _ _ _ Hp). lia.
    - apply (patch_read_typed m cd Hc1 _ _ _ Hp Hb). }
  rewrite stats_fold by apply (patch_read_typed m cd Hc1 _ _ _ Hp Hb). cbn [st_add_bytes st_run_bytes st_copy_bytes st_add_cnt st_run_cnt st_copy_d_cnt st_copy_o_cnt st_output stats_new].
  repeat split; lia.
Qed.
Theorem C53_refuted : forall m cd, exists l st, extract_patch_instructions m cd rep_patch = Ok (l, st) /\ map snd l = [Add [1; 2; 3; 4]; Copy Output 0 4] /\
  st_copy_d_cnt st = 1 /\ st_copy_bytes st = 8 /\ st_output st = 12.
Proof. intros m cd. do 2 eexists. split; [destruct m; vm_compute; reflexivity|]. repeat split; destruct m; reflexivity. Qed.

(** C61. A predecessor whose output is too short for some dictionary copy of the newest patch makes merge panic, in both build modes. *)
Theorem C61_unfitting_predecessor_panics : forall m cd newest p mid out src mid' ops a n, good_patch m cd newest mid out -> reads_as m cd newest ops -> In (Copy Dict a n) ops ->
  good_patch m cd p src mid' -> zlen mid' < a + n -> exists g, merger_new m cd newest = Ok (Open g) /\ merger_merge m cd g p = Panic.
Proof. exact merge_mismatch. Qed.

(** ** Instances *)
(** Three versions of a file and the patches between them, as encode makes them; the newest patch has a dictionary copy. *)
Definition v1 : list Z := map Z.of_nat (seq 0 40).
Definition v2 : list Z := [9; 9; 9; 9; 9; 9] ++ take 30 v1 ++ [77; 78] ++ drop 10 v1.
Definition v3 : list Z := drop 20 v2 ++ [5; 5] ++ take 25 v2.
Definition mcfg : config := mkConfig (Some (mkSC 4 None)) None None Interleaved 16777215 None None.
Definition p12 : list Z := fst (encode Debug toy mcfg (Some v1) v2).
Definition p23 : list Z := fst (encode Debug toy mcfg (Some v2) v3).
Lemma toy_good m a b p : Forall is_byte b -> zlen b < 2 ^ 63 -> zlen a < 2 ^ 63 -> encode Debug toy mcfg (Some a) b = (p, Ok tt) -> good_patch m toy p a b.
Proof. intros Hb H1 H2 E. apply (C49_encoded_patches_merge Debug m toy mcfg a b p); auto. apply toy_lossless. Qed.
Example C49_example : forall m, chain m toy v1 [p23; p12] v3 /\ zlen v1 < 2 ^ 63 /\ new_ok m toy p23 /\
  exists g, merge_from m toy p23 [p12] = Ok (Open g) /\ existsb is_dict_copy (merger_finish g) = true.
Proof.
  intro m. split; [|split; [reflexivity|split]].
  - apply chain_cons with v2; [apply chain_cons with v1; [constructor|]|];
      (apply toy_good; [apply byteb_ok; vm_compute; reflexivity|vm_compute; reflexivity|vm_compute; reflexivity|vm_compute; reflexivity]).
  - right. eexists. split.
    + do 2 eexists. split; [|reflexivity]. apply pr_last; [destruct m; vm_compute; reflexivity|reflexivity].
    + right. reflexivity.
  - eexists. split; [destruct m; vm_compute; reflexivity|]. vm_compute. reflexivity.
Qed.
(** A chain that terminates early: the newest patch copies only from a part of the middle version that is literal. *)
Definition q12 : list Z := [0; 1; 6; 134; 1; 2; 3; 4; 5; 6].
Definition q23 : list Z := [0; 1; 3; 3; 2].
Example C50_example : forall m, chain m toy v1 [q23; q12] [2; 3; 4] /\ new_ok m toy q23 /\ merge_from m toy q23 [q12] = Ok (Summary [Add [2; 3; 4]]).
Proof.
  intro m. split; [|split].
  - assert (G : forall p a b ops, applies m toy p a b -> zlen a < 2 ^ 63 -> zlen b < 2 ^ 63 -> reads_as m toy p ops -> Forall op_good ops -> good_patch m toy p a b)
      by (intros; repeat split; eauto).
    apply chain_cons with [1; 2; 3; 4; 5; 6]; [apply chain_cons with v1; [constructor|]|].
    + apply (G _ _ _ [Add [1; 2; 3; 4; 5; 6]]); [exists 6; destruct m; reflexivity|reflexivity|reflexivity| |repeat constructor; cbn; lia].
      do 2 eexists. split; [apply pr_last; [destruct m; vm_compute; reflexivity|reflexivity]|reflexivity].
    + apply (G _ _ _ [Copy Dict 1 3]); [exists 3; destruct m; reflexivity|reflexivity|reflexivity| |repeat constructor; cbn; lia].
      do 2 eexists. split; [apply pr_last; [destruct m; vm_compute; reflexivity|reflexivity]|reflexivity].
  - right. eexists. split; [do 2 eexists; split; [apply pr_last; [destruct m; vm_compute; reflexivity|reflexivity]|reflexivity]|right; reflexivity].
  - destruct m; vm_compute; reflexivity.
Qed.
Example C51_example : forall m, exists r b, merge_from m toy p23 [p12] = Ok r /\
  summary_write m toy (summary_of r) (Some 0) (Some Segregated) (Some (SmdiffComp (mkTC 20 8 None))) = (b, Ok tt).
Proof.
  intro m. exists (Open (mkMerger [(0, Run 14 1); (1, Copy Dict 15 15); (16, Add [77; 78]); (18, Copy Dict 10 30); (48, Add [5; 5; 9]); (51, Run 9 5); (56, Copy Dict 0 19)] [1; 3; 6])).
  exists [72; 7; 5; 70; 0; 1; 17; 145; 193; 14; 15; 30; 130; 30; 9; 131; 197; 9; 19; 19; 77; 78; 5; 5; 9].
  split; destruct m; vm_compute; reflexivity.
Qed.
Example C47_example : run_ops [7; 8; 9] [] [Copy Dict 0 3; Add [1; 2]; Copy Output 1 3; Copy Output 4 4] = Some [7; 8; 9; 1; 2; 8; 9; 1; 2; 8; 9; 1] /\
  deref_copy_o Debug (number 0 [Copy Dict 0 3; Add [1; 2]; Copy Output 1 3; Copy Output 4 4]) =
  Ok [(0, Copy Dict 0 3); (3, Add [1; 2]); (5, Copy Dict 1 2); (7, Add [1]); (8, Add [2]); (9, Copy Dict 1 2); (11, Add [1])].
Proof. split; reflexivity. Qed.
Example C46_example : forall m, contiguous 0 [(0, Copy Dict 0 3); (3, Add [1; 2]); (5, Run 6 4)] /\
  Forall (in_place [7; 8; 9] [7; 8; 9; 1; 2; 6; 6; 6; 6]) [(0, Copy Dict 0 3); (3, Add [1; 2]); (5, Run 6 4)] /\
  get_exact_slice m [(0, Copy Dict 0 3); (3, Add [1; 2]); (5, Run 6 4)] 1 6 = Ok (Some [(1, Copy Dict 1 2); (3, Add [1; 2]); (5, Run 6 2)]).
Proof.
  intro m. split; [cbn; auto|]. split; [|destruct m; reflexivity].
  repeat (apply Forall_cons; [unfold in_place, op_good, op_ok, is_byte; cbn; repeat split; try lia; repeat constructor; lia|]). constructor.
Qed.
Lemma toy_dec_ok : forall n bs dec rest, (length bs <= n)%nat -> toy_dec bs = Ok (dec, rest) -> zlen rest <= zlen bs /\ (Forall is_byte bs -> Forall is_byte dec /\ Forall is_byte rest).
Proof.
  induction n as [|n IH]; intros bs dec rest Hn H; (destruct bs as [|x bs]; [discriminate|]); [cbn in Hn; lia|]. cbn [toy_dec] in H.
  destruct x as [|[|[]|]|]; try discriminate.
  - injection H as <- <-. rewrite zlen_cons. split; [lia|]. intro Hb. inversion Hb; subst. split; [constructor|assumption].
  - destruct bs as [|b bs]; [discriminate|]. apply bind_ok in H as ([x t] & H & E). injection E as <- <-. cbn [length] in Hn. apply IH in H as [H1 H2]; [|lia]. rewrite !zlen_cons.
    split; [lia|]. intro Hb. inversion Hb as [|? ? _ Hb1]; subst. inversion Hb1 as [|? ? Hb2 Hb3]; subst. destruct (H2 Hb3). split; [constructor; assumption|assumption].
Qed.
Example C54_example : codecs_bytes toy /\ codecs_shrink toy /\ Forall is_byte rep_patch /\ forall m, reads_as m toy rep_patch [Add [1; 2; 3; 4]; Copy Output 0 4].
Proof.
  split; [split; intros bs dec rest Hb H; [apply toy_zstd in H as (r & -> & H); inversion Hb as [|? ? _ Hb1]; subst; inversion Hb1 as [|? ? _ Hb2]; subst; clear Hb; rename Hb2 into Hb|];
    exact (proj2 (toy_dec_ok _ _ _ _ (le_n _) H) Hb)|].
  split; [split; intros bs dec rest H; [apply toy_zstd in H as (r & -> & H); rewrite !zlen_cons; assert (zlen rest <= zlen r) by exact (proj1 (toy_dec_ok _ _ _ _ (le_n _) H)); lia|exact (proj1 (toy_dec_ok _ _ _ _ (le_n _) H))]|].
  split; [apply byteb_ok; reflexivity|]. intro m. exists [([Add [1; 2; 3; 4]; Copy Output 0 4], mkHeader 0 Interleaved false 2 0 8)], [].
  split; [|reflexivity]. apply pr_last; [destruct m; vm_compute; reflexivity|reflexivity].
Qed.

Definition q01 : list Z := [0; 1; 2; 130; 1; 2].
Example C61_example : forall m cd, good_patch m cd q23 [1; 2; 3; 4; 5; 6] [2; 3; 4] /\ reads_as m cd q23 [Copy Dict 1 3] /\ good_patch m cd q01 v1 [1; 2] /\ zlen [1; 2] < 1 + 3.
Proof.
  intros m cd. assert (R1 : reads_as m cd q23 [Copy Dict 1 3]).
  { exists [([Copy Dict 1 3], mkHeader 0 Interleaved false 1 0 3)], []. split; [apply pr_last; [destruct m; vm_compute; reflexivity|reflexivity]|reflexivity]. }
  assert (R2 : reads_as m cd q01 [Add [1; 2]]).
  { exists [([Add [1; 2]], mkHeader 0 Interleaved false 1 0 2)], []. split; [apply pr_last; [destruct m; vm_compute; reflexivity|reflexivity]|reflexivity]. }
  split; [|split; [exact R1|split; [|reflexivity]]].
  - split; [exists 3; destruct m; reflexivity|]. split; [reflexivity|]. split; [reflexivity|]. eexists. split; [exact R1|repeat constructor; cbn; lia].
  - split; [exists 2; destruct m; reflexivity|]. split; [reflexivity|]. split; [reflexivity|]. eexists. split; [exact R2|repeat constructor; cbn; lia].
Qed.

Print Assumptions C61_unfitting_predecessor_panics.
Print Assumptions C45_controlling_op_exact.
Print Assumptions C46_exact_slice.
Print Assumptions C47_deref_preserves.
Print Assumptions C48_merge_two.
Print Assumptions C49_merge_chain.
Print Assumptions C49_encoded_patches_merge.
Print Assumptions C50_early_summary_sound.
Print Assumptions C51_written_merge.
Print Assumptions C52_new_exact.
Print Assumptions C52_refuted.
Print Assumptions C53_statistics_exact.
Print Assumptions C53_refuted.
Print Assumptions C54_extraction_exact.
