(** Property C121: joining patches. *)
From Verif Require Import Base Spec SpecEnc MCommon MWriter MReader MDecoder MOpMaker MTrgtMatcher MSrcMatcher MEncInner MEncode SpecApi
  SpecMerge PBase PStream PSection PWriter PDecoder PPatch POpMaker PEncode PMerge PMerge2 PMerge3 PMerge4 PTrans MVcdiff SpecVcd PVcdiff TEncode TMerge TTrans TVcdiff TPipe TTrunc.
Ltac Zify.zify_post_hook ::= idtac.
Arguments Z.add : simpl never.
Arguments Z.sub : simpl never.
Arguments Z.mul : simpl never.
Arguments Z.pow : simpl never.

(** [joined next p1 p2 j]: [j] is the patch [p1] with the continuation flag of its last section set (the highest bit of the section's first byte), and [p2] behind it. *)
Inductive joined (next : next_t) : list Z -> list Z -> list Z -> Prop :=
| jn_last b c p2 ops h : next (b :: c) = Ok (ops, h, []) -> h_more h = false -> joined next (b :: c) p2 ((b + 128) :: c ++ p2)
| jn_more s p1 p2 j ops h : next (s ++ p1) = Ok (ops, h, p1) -> h_more h = true -> joined next p1 p2 j -> joined next (s ++ p1) p2 (s ++ j).
(** The operation for an output that has [k] bytes more in front. *)
Definition moved (k : Z) (o : op) : op := match o with Copy Output a n => Copy Output (a + k) n | _ => o end.

Definition smore (h : header) : header := mkHeader (h_comp h) (h_format h) true (h_nops h) (h_nadd h) (h_osize h).
Lemma ops_smore m h bs : read_ops_no_comp m (smore h) bs = (do (ops, h', r) <- read_ops_no_comp m h bs; Ok (ops, smore h', r)).
Proof.
  unfold read_ops_no_comp. cbn [smore h_format h_nops h_nadd h_osize].
  destruct (read_ops_loop (S (length bs)) m (h_format h) (h_nops h) 0 0 0 (h_nadd h) bs) as [[[[ops cs] nadd] bs1]|e| |]; try reflexivity. cbn [bind].
  destruct (negb (cs =? h_osize h)); [reflexivity|]. destruct (h_format h); cbn [bind]; [reflexivity|]. destruct (fill_adds ops bs1) as [[ops1 bs2]|e| |]; reflexivity.
Qed.
Lemma byte_flag b : 0 <= b < 256 -> Z.land b 128 <> 128 ->
  Z.land (b + 128) SECTION_COMPRESSION_MASK = Z.land b SECTION_COMPRESSION_MASK /\ Z.land (b + 128) SECTION_FORMAT_BIT = Z.land b SECTION_FORMAT_BIT /\ Z.land (b + 128) 128 = 128.
Proof.
  intros Hb Hn. set (P := fun b => (Z.land b 128 =? 128) || ((Z.land (b + 128) SECTION_COMPRESSION_MASK =? Z.land b SECTION_COMPRESSION_MASK) && (Z.land (b + 128) SECTION_FORMAT_BIT =? Z.land b SECTION_FORMAT_BIT) && (Z.land (b + 128) 128 =? 128))).
  assert (A : forallb P (map Z.of_nat (seq 0 256)) = true) by (vm_compute; reflexivity). rewrite forallb_forall in A. specialize (A b).
  assert (I : In b (map Z.of_nat (seq 0 256))). { apply in_map_iff. exists (Z.to_nat b). split; [lia|apply in_seq; lia]. }
  specialize (A I). unfold P in A. destruct (Z.eqb_spec (Z.land b 128) 128); [contradiction|]. cbn [orb] in A. apply andb_prop in A as [A A3]. apply andb_prop in A as [A1 A2].
  apply Z.eqb_eq in A1, A2, A3. auto.
Qed.
Lemma header_smore m b c h r : is_byte b -> read_section_header m (b :: c) = Ok (h, r) -> h_more h = false -> read_section_header m ((b + 128) :: c) = Ok (smore h, r).
Proof.
  intros Hb E Hm. unfold read_section_header in *.
  assert (R : forall x, read_u8 (x :: c) = Ok (x, c)).
  { reflexivity. }
  rewrite R in *. cbn [bind] in *. cbv zeta in *.
  assert (Hn : Z.land b 128 <> 128).
  { intro X. apply bind_ok in E as ([n b1] & _ & E). apply bind_ok in E as ([a b2] & _ & E). apply bind_ok in E as ([s b3] & _ & E). apply bind_ok in E as (o & _ & E). injection E as <- _. cbn [h_more] in Hm.
    unfold SECTION_CONTINUE_BIT in Hm. rewrite X in Hm. discriminate Hm. }
  destruct (byte_flag b Hb Hn) as (E1 & E2 & E3). rewrite E1, E2. unfold SECTION_CONTINUE_BIT in *. rewrite E3. change (128 =? 128) with true.
  destruct (read_u_varint m c) as [[n b1]|e| |]; try discriminate E. cbn [bind] in *.
  destruct (if is_segregated (if Z.land b SECTION_FORMAT_BIT =? SECTION_FORMAT_BIT then Segregated else Interleaved) then do (a, bs) <- read_u_varint m b1; Ok (to_u32 a, bs) else Ok (0, b1)) as [[a b2]|e| |]; try discriminate E. cbn [bind] in *.
  destruct (read_u_varint m b2) as [[s b3]|e| |]; try discriminate E. cbn [bind] in *.
  destruct (if is_segregated (if Z.land b SECTION_FORMAT_BIT =? SECTION_FORMAT_BIT then Segregated else Interleaved) then arith m to_u32 (a + to_u32 s) else Ok (to_u32 s)) as [o|e| |]; try discriminate E. cbn [bind] in *.
  injection E as <- <-. reflexivity.
Qed.
Lemma ops_h m h bs ops h' r : read_ops_no_comp m h bs = Ok (ops, h', r) -> h_more h' = h_more h.
Proof.
  unfold read_ops_no_comp. intro E. apply bind_ok in E as ([[[l cs] nadd] bs1] & _ & E). destruct (negb (cs =? h_osize h)); [discriminate E|]. destruct (h_format h); [injection E as _ <- _; reflexivity|].
  apply bind_ok in E as ([l2 b2] & _ & E). injection E as _ <- _. reflexivity.
Qed.
Lemma next_smore m cd b c ops h r : is_byte b -> next_section m cd (b :: c) = Ok (ops, h, r) -> h_more h = false -> next_section m cd ((b + 128) :: c) = Ok (ops, smore h, r).
Proof.
  intros Hb E Hm. unfold next_section in *. apply bind_ok in E as ([h0 r0] & Eh & E).
  assert (H0 : h_more h0 = false).
  { rewrite <- Hm. destruct (h_comp h0 =? 1); [destruct (apply_no_sec_comp m None r0 (mkSink [] 0)) as [s [x|e| |]]; try discriminate E|
      destruct (h_comp h0 =? 2); [apply bind_ok in E as ([dec x] & _ & E)|destruct (h_comp h0 =? 3); [apply bind_ok in E as ([dec x] & _ & E)|symmetry; exact (ops_h _ _ _ _ _ _ E)]]];
      apply bind_ok in E as ([[l h1] y] & E & E'); injection E' as _ <- _; symmetry; exact (ops_h _ _ _ _ _ _ E). }
  rewrite (header_smore m b c h0 r0 Hb Eh H0). cbn [bind]. change (h_comp (smore h0)) with (h_comp h0).
  destruct (h_comp h0 =? 1).
  - destruct (apply_no_sec_comp m None r0 (mkSink [] 0)) as [s [x|e| |]]; try discriminate E. apply bind_ok in E as ([[l h1] y] & E & E'). injection E' as <- <- <-. rewrite ops_smore, E. reflexivity.
  - destruct (h_comp h0 =? 2); [|destruct (h_comp h0 =? 3)].
    + apply bind_ok in E as ([dec x] & Ed & E). rewrite Ed. cbn [bind]. apply bind_ok in E as ([[l h1] y] & E & E'). injection E' as <- <- <-. rewrite ops_smore, E. reflexivity.
    + apply bind_ok in E as ([dec x] & Ed & E). rewrite Ed. cbn [bind]. apply bind_ok in E as ([[l h1] y] & E & E'). injection E' as <- <- <-. rewrite ops_smore, E. reflexivity.
    + rewrite ops_smore, E. reflexivity.
Qed.
Lemma flagged m cd b c ops : is_byte b -> sec_at false (next_section m cd) (b :: c) ops false -> sec_at false (next_section m cd) ((b + 128) :: c) ops true.
Proof.
  intros Hb (_ & H & _). split; [discriminate|]. split; [|discriminate]. intro t. destruct (H t) as (h & E & Hm). exists (smore h). split; [|reflexivity]. cbn [app] in *. exact (next_smore m cd _ _ _ _ _ Hb E Hm).
Qed.
Lemma joined_stream m cd secs1 p1 : stream_of false (next_section m cd) secs1 p1 -> Forall is_byte p1 -> forall p2 secs2, stream_of false (next_section m cd) secs2 p2 ->
  forall j, joined (next_section m cd) p1 p2 j -> stream_of false (next_section m cd) (secs1 ++ secs2) j.
Proof.
  induction 1 as [ops b Hs|ops b secs bs Hs _ IH]; intros Hb p2 secs2 H2 j Hj.
  - destruct (proj1 (proj2 Hs) []) as (h & E & Hm). rewrite app_nil_r in E. inversion Hj as [b1 c1 ? ops1 h1 E1 Hm1|s p1 ? j' ops1 h1 E1 Hm1 Hj']; subst.
    + apply Forall_cons_iff in Hb as [Hb _]. cbn [app]. rewrite app_comm_cons. apply so_more; [exact (flagged _ _ _ _ _ Hb Hs)|exact H2].
    + rewrite E in E1. injection E1 as <- <- <-. congruence.
  - destruct (proj1 (proj2 Hs) bs) as (h & E & Hm). apply Forall_app in Hb as [_ Hb]. cbn [app].
    inversion Hj as [b1 c1 ? ops1 h1 E1 Hm1 Eq|s p1 ? j' ops1 h1 E1 Hm1 Hj' Eq]; subst.
    + rewrite Eq in E1. rewrite E in E1. injection E1 as <- <- _. congruence.
    + rewrite Eq in E1. rewrite E in E1. injection E1 as <- <- <-. apply app_inv_tail in Eq. subst s. apply so_more; [exact Hs|]. exact (IH Hb p2 secs2 H2 j' Hj').
Qed.
Lemma joined_exists m cd secs1 p1 p2 : stream_of false (next_section m cd) secs1 p1 -> exists j, joined (next_section m cd) p1 p2 j.
Proof.
  induction 1 as [ops b Hs|ops b secs bs Hs _ IH].
  - destruct Hs as (Hne & H & _). destruct (H []) as (h & E & Hm). rewrite app_nil_r in E. destruct b as [|b c]; [congruence|]. eexists. eapply jn_last; eassumption.
  - destruct Hs as (_ & H & _). destruct (H bs) as (h & E & Hm). destruct IH as (j & Hj). eexists. eapply jn_more; eassumption.
Qed.
Lemma joined_unique m cd secs1 p1 : stream_of false (next_section m cd) secs1 p1 -> forall p2 j j', joined (next_section m cd) p1 p2 j -> joined (next_section m cd) p1 p2 j' -> j = j'.
Proof.
  intros _ p2 j j' H. revert j'. induction H as [b c p2 ops h E Em|s p1 p2 j ops h E Em H IH]; intros j' H'.
  - inversion H' as [b1 c1 ? ops1 h1 E1 Em1|s1 q1 ? j1 ops1 h1 E1 Em1 Hj Eq]; subst; [reflexivity|]. rewrite Eq in E1. rewrite E in E1. injection E1 as _ <- _. congruence.
  - inversion H' as [b1 c1 ? ops1 h1 E1 Em1 Eq|s1 q1 ? j1 ops1 h1 E1 Em1 Hj Eq]; subst.
    + rewrite Eq in E1. rewrite E in E1. injection E1 as _ <- _. congruence.
    + rewrite Eq in E1. rewrite E in E1. injection E1 as _ _ <-. apply app_inv_tail in Eq. subst s1. f_equal. exact (IH _ Hj).
Qed.

Lemma run_behind src x : forall ops o r, run_ops src o ops = Some r -> run_ops src (x ++ o) (map (moved (zlen x)) ops) = Some (x ++ r).
Proof.
  assert (G : forall o a b, op_bytes src o a = Some b -> op_bytes src (x ++ o) (moved (zlen x) a) = Some b).
  { intros o [bs|b n|[|] a n] y E; cbn [moved op_bytes] in *; try exact E. destruct (in_range o a n) eqn:Ei; [|discriminate E]. injection E as <-. unfold in_range in *. rewrite zlen_app. pose proof (zlen_nonneg x).
    destruct (Z.eqb_spec n 0) as [Hn|Hn]; cbn [orb] in *.
    - rewrite Hn. unfold sub. unfold take. change (Z.to_nat 0) with 0%nat. reflexivity.
    - apply andb_prop in Ei as [A B]. apply Z.leb_le in A, B. destruct (Z.leb_spec 0 (a + zlen x)); [|lia]. destruct (Z.leb_spec (a + zlen x + n) (zlen x + zlen o)); [|lia]. cbn [andb].
      unfold sub. rewrite drop_app_r by lia. do 3 f_equal. lia. }
  induction ops as [|a ops IH]; intros o r E; cbn [run_ops map] in *; [injection E as <-; reflexivity|].
  destruct (op_bytes src o a) as [b|] eqn:Eb; [|discriminate E]. rewrite (G _ _ _ Eb). rewrite <- app_assoc. exact (IH _ _ E).
Qed.
Lemma no_out_moved k ops : existsb is_out_copy ops = false -> map (moved k) ops = ops.
Proof.
  induction ops as [|o ops IH]; intro H; [reflexivity|]. cbn [existsb map] in *. apply orb_false_elim in H as [Ho H]. rewrite (IH H). destruct o as [bs|b n|[|] a n]; try reflexivity. discriminate Ho.
Qed.

Lemma made_ops m cd p src out : made cd p src out -> exists secs, stream_of false (next_section m cd) secs p /\ (exists ops, reads_as m cd p ops /\ ops = concat secs) /\ Forall op_ok (concat secs) /\ run_ops src [] (concat secs) = Some out.
Proof.
  intro Hp. destruct (made_stream _ _ _ _ Hp m) as (secs & Hs). exists secs. split; [exact Hs|]. destruct (C75_every_workflow _ _ _ _ Hp m) as (HA & _ & _ & ops & HR & Hg). destruct (applies_extract _ _ _ _ _ _ HA HR (good_ok _ Hg)) as [_ Hrun].
  assert (E : ops = concat secs). { destruct HR as (l & r & Hpr & ->). rewrite <- (app_nil_r p) in Hpr. rewrite (stream_read_same _ _ _ Hs _ _ _ Hpr). reflexivity. }
  split; [exists ops; auto|]. subst ops. split; [exact (good_ok _ Hg)|exact Hrun].
Qed.
Lemma reads_stream m cd secs p ops : stream_of false (next_section m cd) secs p -> reads_as m cd p ops -> ops = concat secs.
Proof. intros Hs (l & r & Hpr & ->). rewrite <- (app_nil_r p) in Hpr. rewrite (stream_read_same _ _ _ Hs _ _ _ Hpr). reflexivity. Qed.

(** C121. Two patches for one source can be joined in exactly one way; applied to the source the joined patch performs the operations of the first and then those of the second, on the output of the first. *)
Theorem C121_joined_patches : forall m cd p1 p2 src out1 out2, made cd p1 src out1 -> made cd p2 src out2 -> Forall is_byte p1 ->
  exists j, joined (next_section m cd) p1 p2 j /\ (forall j', joined (next_section m cd) p1 p2 j' -> j' = j) /\ zlen j = zlen p1 + zlen p2 /\
    exists ops2, reads_as m cd p2 ops2 /\
    match run_ops src out1 ops2 with
    | Some out => exists q, apply_patch m cd j (Some src) (mkSink [] 0) = (mkSink out q, Ok tt)
    | None => snd (apply_patch m cd j (Some src) (mkSink [] 0)) = Err EOF
    end.
Proof.
  intros m cd p1 p2 src out1 out2 H1 H2 Hb. destruct (made_ops m _ _ _ _ H1) as (secs1 & S1 & _ & O1 & R1). destruct (made_ops m _ _ _ _ H2) as (secs2 & S2 & (ops2 & HR & ->) & O2 & R2).
  destruct (joined_exists m cd _ _ p2 S1) as (j & Hj). exists j. split; [exact Hj|]. split; [intros j' Hj'; exact (joined_unique m cd _ _ S1 _ _ _ Hj' Hj)|].
  split. { clear -Hj. induction Hj as [b c p2 ops h _ _|s p1 p2 j ops h _ _ _ IH]; rewrite ?zlen_cons, ?zlen_app, ?zlen_cons; lia. }
  exists (concat secs2). split; [exact HR|]. pose proof (joined_stream m cd _ _ S1 Hb _ _ S2 _ Hj) as Sj.
  assert (On : Forall op_nonneg (concat (secs1 ++ secs2))) by (rewrite concat_app; apply Forall_app; split; apply ops_ok_nonneg; assumption).
  destruct (apply_patch_stream false m cd _ j [] src [] 0 Sj On) as (q & E). rewrite app_nil_r in E. rewrite perform_run, concat_app, run_ops_app, R1 in E.
  destruct (run_ops src out1 (concat secs2)) as [out|]; rewrite E; [|reflexivity]. exists q. rewrite over_nil. reflexivity.
Qed.
(** C121. If the second patch has no copies from its own output (it was encoded without target matching, say), the joined patch makes the second output behind the first. *)
Theorem C121_join_without_output_copies : forall m cd p1 p2 src out1 out2 ops2, made cd p1 src out1 -> made cd p2 src out2 -> Forall is_byte p1 -> reads_as m cd p2 ops2 -> existsb is_out_copy ops2 = false ->
  forall j, joined (next_section m cd) p1 p2 j -> exists q, apply_patch m cd j (Some src) (mkSink [] 0) = (mkSink (out1 ++ out2) q, Ok tt).
Proof.
  intros m cd p1 p2 src out1 out2 ops2 H1 H2 Hb HR Hn j Hj. destruct (C121_joined_patches m cd p1 p2 src out1 out2 H1 H2 Hb) as (j0 & _ & Hu & _ & ops & HR2 & H). rewrite (Hu _ Hj).
  destruct (made_ops m _ _ _ _ H2) as (secs2 & S2 & _ & _ & R2). pose proof (reads_stream _ _ _ _ _ S2 HR) as E1. pose proof (reads_stream _ _ _ _ _ S2 HR2) as E2. subst ops2 ops.
  pose proof (run_behind src out1 _ [] out2 R2) as X. rewrite app_nil_r, no_out_moved in X by exact Hn. rewrite X in H. exact H.
Qed.
(** C121. In general the addresses of the second patch's output copies have to be moved by the length of the first output: any patch written with these operations, in any sections, does it. *)
Theorem C121_join_moved : forall m m' cd p1 p2 src out1 out2 ops1 ops2 secs b, made cd p1 src out1 -> made cd p2 src out2 -> reads_as m cd p1 ops1 -> reads_as m cd p2 ops2 ->
  written_sc m' cd secs b -> Forall (sc_ok cd) secs -> sc_ops secs = ops1 ++ map (moved (zlen out1)) ops2 ->
  exists q, apply_patch m cd b (Some src) (mkSink [] 0) = (mkSink (out1 ++ out2) q, Ok tt).
Proof.
  intros m m' cd p1 p2 src out1 out2 ops1 ops2 secs b H1 H2 HR1 HR2 Hw Hok Heq.
  destruct (made_ops m _ _ _ _ H1) as (secs1 & S1 & _ & _ & R1). destruct (made_ops m _ _ _ _ H2) as (secs2 & S2 & _ & _ & R2).
  rewrite (reads_stream _ _ _ _ _ S1 HR1), (reads_stream _ _ _ _ _ S2 HR2) in Heq.
  destruct (written_sc_stream m' m cd secs b Hw Hok) as [Sw Ow]. unfold sc_ops in *. destruct (apply_patch_stream false m cd _ b [] src [] 0 Sw (ops_ok_nonneg _ Ow)) as (q & E).
  rewrite app_nil_r in E. rewrite perform_run, Heq, run_ops_app, R1 in E. pose proof (run_behind src out1 _ [] out2 R2) as X. rewrite app_nil_r in X. rewrite X in E. rewrite over_nil in E. exists q. exact E.
Qed.

(** The example: a target that repeats itself, encoded with target matching. *)
Definition j_block : list Z := [10; 11; 12; 13; 14; 15; 16; 17; 18; 19; 20; 21; 22; 23; 24; 25; 26; 27; 28; 29; 30; 31; 32; 33; 34; 35; 36; 37; 38; 39; 40; 41; 42; 43; 44; 45; 46; 47; 48; 49; 50].
Definition j_cfg : config := mkConfig (Some (mkSC 1 None)) (Some (mkTC 60 8 None)) None Interleaved 16777215 None (Some 0).
Definition j_word : list Z := [1; 2; 3; 4; 5; 6; 7; 8; 9; 1; 3; 2; 4; 3; 5; 4].
Definition j_t1 : list Z := 7 :: j_block.
Definition j_t2 : list Z := j_block ++ [8; 9].
Definition j_t3 : list Z := j_block ++ j_word ++ j_block ++ j_word ++ j_block.
Definition j_p1 : list Z := [0; 2; 42; 193; 7; 41; 0].
Definition j_p2 : list Z := [0; 2; 43; 41; 0; 130; 8; 9].
Definition j_p3 : list Z := [0; 4; 155; 1; 41; 0; 144; 1; 2; 3; 4; 5; 6; 7; 8; 9; 1; 3; 2; 4; 3; 5; 4; 41; 0; 121; 82].
Lemma j_made : made no_codecs j_p1 j_block j_t1 /\ made no_codecs j_p2 j_block j_t2 /\ made no_codecs j_p3 j_block j_t3.
Proof.
  assert (M : forall t p, Forall is_byte t -> zlen t < 1000 -> encode Debug no_codecs j_cfg (Some j_block) t = (p, Ok tt) -> made no_codecs p j_block t).
  { intros t p Hb Hz H. apply (made_encode no_codecs Debug j_cfg j_block t p I Hb); [lia|vm_compute; reflexivity|exact H]. }
  assert (B : forall l, forallb (fun x => (0 <=? x) && (x <? 256)) l = true -> Forall is_byte l).
  { intros l H. rewrite forallb_forall in H. apply Forall_forall. intros x Hx. specialize (H x Hx). unfold is_byte. lia. }
  split; [|split]; apply M; try (apply B; vm_compute; reflexivity); vm_compute; reflexivity.
Qed.
Lemma j_joined p2 : joined (next_section Debug no_codecs) j_p1 p2 ([128; 2; 42; 193; 7; 41; 0] ++ p2).
Proof. unfold j_p1. eapply (jn_last (next_section Debug no_codecs) 0 [2; 42; 193; 7; 41; 0] p2); [vm_compute; reflexivity|reflexivity]. Qed.
Example C121_example :
  (exists ops2, reads_as Debug no_codecs j_p2 ops2 /\ existsb is_out_copy ops2 = false) /\
  (exists q, apply_patch Debug no_codecs ([128; 2; 42; 193; 7; 41; 0] ++ j_p2) (Some j_block) (mkSink [] 0) = (mkSink (j_t1 ++ j_t2) q, Ok tt)).
Proof.
  assert (R : reads_as Debug no_codecs j_p2 [Copy Dict 0 41; Add [8; 9]]).
  { exists [([Copy Dict 0 41; Add [8; 9]], mkHeader 0 Interleaved false 2 0 43)], []. split; [|reflexivity]. apply pr_last; [vm_compute; reflexivity|reflexivity]. }
  split; [exists [Copy Dict 0 41; Add [8; 9]]; split; [exact R|reflexivity]|].
  destruct j_made as (H1 & H2 & _). eapply (C121_join_without_output_copies Debug no_codecs j_p1 j_p2 j_block j_t1 j_t2 _ H1 H2); [|exact R|reflexivity|apply j_joined].
  unfold j_p1. repeat constructor; unfold is_byte; lia.
Qed.
(** The hypotheses of [C121_join_moved]: the third patch copies from its own output; its operations, moved by 42, behind those of the first. *)
Example C121_example_moved : exists secs b, written_sc Debug no_codecs secs b /\ Forall (sc_ok no_codecs) secs /\
  reads_as Debug no_codecs j_p1 [Run 7 1; Copy Dict 0 41] /\ reads_as Debug no_codecs j_p3 [Copy Dict 0 41; Add j_word; Copy Dict 0 41; Copy Output 41 57] /\
  sc_ops secs = [Run 7 1; Copy Dict 0 41] ++ map (moved (zlen j_t1)) [Copy Dict 0 41; Add j_word; Copy Dict 0 41; Copy Output 41 57] /\
  fst (apply_patch Debug no_codecs b (Some j_block) (mkSink [] 0)) = mkSink (j_t1 ++ j_t3) 197.
Proof.
  exists [([Run 7 1; Copy Dict 0 41; Copy Dict 0 41; Add j_word; Copy Dict 0 41; Copy Output 83 57], mkHeader 0 Interleaved false 6 0 197, None)]. eexists.
  split; [apply wsc_last; [reflexivity|vm_compute; reflexivity]|]. split.
  { constructor; [|constructor]. split; [|split; [exact I|reflexivity]]. cbn [fst]. split; [|split; [|split]].
    - repeat constructor; unfold is_byte; cbn; lia.
    - repeat (apply Forall_cons; [vm_compute; discriminate|]). apply Forall_nil.
    - unfold header_typed. cbn. lia.
    - right. cbn. lia. }
  split; [exists [([Run 7 1; Copy Dict 0 41], mkHeader 0 Interleaved false 2 0 42)], []; split; [apply pr_last; [vm_compute; reflexivity|reflexivity]|reflexivity]|].
  split; [exists [([Copy Dict 0 41; Add j_word; Copy Dict 0 41; Copy Output 41 57], mkHeader 0 Interleaved false 4 0 155)], []; split; [apply pr_last; [vm_compute; reflexivity|reflexivity]|reflexivity]|].
  split; [reflexivity|vm_compute; reflexivity].
Qed.
(** C121, "the joined patch makes the two outputs one after the other", is false if the second patch copies from its own output: the copy then takes other bytes, and nobody notices. *)
Theorem C121_refuted : ~ (forall m cd p1 p2 src out1 out2, made cd p1 src out1 -> made cd p2 src out2 -> Forall is_byte p1 ->
  forall j, joined (next_section m cd) p1 p2 j -> forall s, apply_patch m cd j (Some src) (mkSink [] 0) = (s, Ok tt) -> sbuf s = out1 ++ out2).
Proof.
  intro H. destruct j_made as (H1 & _ & H3). assert (Hb : Forall is_byte j_p1) by (unfold j_p1; repeat constructor; unfold is_byte; lia).
  specialize (H Debug no_codecs j_p1 j_p3 j_block j_t1 j_t3 H1 H3 Hb _ (j_joined j_p3)).
  assert (E : exists s, apply_patch Debug no_codecs ([128; 2; 42; 193; 7; 41; 0] ++ j_p3) (Some j_block) (mkSink [] 0) = (s, Ok tt) /\ list_eqb (sbuf s) (j_t1 ++ j_t3) = false)
    by (eexists; split; [vm_compute; reflexivity|vm_compute; reflexivity]).
  destruct E as (s & E & X). rewrite (H _ E) in X. vm_compute in X. discriminate X.
Qed.
Print Assumptions C121_joined_patches.
Print Assumptions C121_join_without_output_copies.
Print Assumptions C121_join_moved.
Print Assumptions C121_refuted.
