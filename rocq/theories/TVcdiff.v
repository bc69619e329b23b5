(** Properties C58, C59: smdiff-vcdiff's conversion of a VCDIFF stream. The build that applies the result ([m']) may differ from the one that converts ([m]). *)
From Verif Require Import Base Spec MCommon MWriter MReader MDecoder MOpMaker MEncode MVcdiff SpecEnc SpecApi SpecVcd PBase PStream PSection PWriter PDecoder PPatch POpMaker PEncode PVcdiff TEncode.
Ltac Zify.zify_post_hook ::= idtac.
Arguments Z.add : simpl never.
Arguments Z.sub : simpl never.
Arguments Z.pow : simpl never.

Lemma cgood_new : cgood (mkC [] 0 0).
Proof. unfold cgood. cbn [c_win c_size c_nadd]. repeat split; try constructor; unfold max_win_size; lia. Qed.
Lemma convert_good m src msgs out : vcdiff_of src msgs out -> zlen src < 2 ^ 63 -> zlen out < 2 ^ 63 -> existsb long_seq (all_insts msgs) = false ->
  exists b secs, convert_vcdiff m msgs = (b, Ok tt) /\ (forall m' cd, secs_good (next_section m' cd) secs b) /\ makes src [] (concat (map fst secs)) out /\ Forall hdr_true secs /\
    exists s1 b1 ops h b2, secs = s1 ++ [(ops, h)] /\ b = b1 ++ b2 /\ pre_written m s1 b1 /\ sec_in Interleaved max_win_size (ops, h) /\ plain_writer m ops h = (b2, Ok tt) /\ h_more h = false.
Proof.
  intros Hv Hs Ho Hl. destruct (convert_spec m src msgs out Hs Hv Ho) as (L & (_ & _ & P & _) & E). rewrite Hl in P. destruct (P eq_refl) as [M X]. clear P.
  assert (Ha : addrs_lt (2 ^ 63) (map fst L)) by (destruct M as [Mg Mr]; eapply (run_ops_addrs src (2 ^ 63)); [lia|exact Mr|exact Mg|cbn [app]; lia]).
  destruct (pushes_good m (map fst L) (mkC [] 0 0) cgood_new (proj1 M) Ha) as (b1 & s1 & c & E1 & Hc & P1 & C1 & T1 & W1). rewrite (sized_exact _ X) in E1.
  destruct (cgood_write m c false Hc) as (b2 & E2 & P2). exists (b1 ++ b2), (s1 ++ [(c_win c, c_hdr c false)]). split; [|split; [|split; [|split]]].
  - rewrite E, E1. now apply wbind_pair.
  - intros m' cd. apply pre_last; auto.
  - rewrite map_app, concat_app. cbn [map fst concat]. rewrite app_nil_r, C1. exact M.
  - apply Forall_app. split; [exact T1|]. constructor; [now apply cgood_hdr|constructor].
  - exists s1, b1, (c_win c), (c_hdr c false), b2. repeat (split; [reflexivity|]). split; [exact W1|]. split; [now apply cgood_in|]. split; [exact E2|reflexivity].
Qed.

(** C58. Whatever stream the VCDIFF reader returns that turns [src] into [out] and has no sequence copy whose period and length are both above 65535: the conversion succeeds;
    applying its result to [src] overwrites the sink with exactly [out], whatever follows the patch; and the patch, read back, has only operations within the limits (none empty),
    true headers, and interleaved, uncompressed sections of at most 2^24 - 1 bytes. *)
Theorem C58_vcdiff_conversion : forall m src msgs out, vcdiff_of src msgs out -> zlen src < 2 ^ 63 -> zlen out < 2 ^ 63 -> existsb long_seq (all_insts msgs) = false ->
  exists b, convert_vcdiff m msgs = (b, Ok tt) /\ forall m' cd,
    (forall t old p, exists p', apply_patch m' cd (b ++ t) (Some src) (mkSink old p) = (mkSink (over out old) p', Ok tt)) /\
    exists secs, patch_read (next_section m' cd) b secs [] /\
      Forall (fun s => Forall op_good (fst s) /\ h_nops (snd s) = zlen (fst s) /\ h_osize (snd s) = ops_len (fst s) /\ ops_len (fst s) <= 16777215 /\
                       h_format (snd s) = Interleaved /\ h_comp (snd s) = 0) secs.
Proof.
  intros m src msgs out Hv Hs Ho Hl. destruct (convert_good m src msgs out Hv Hs Ho Hl) as (b & secs & E & G & [Hg Hr] & T & _). exists b. split; [exact E|]. intros m' cd. specialize (G m' cd). split.
  - intros t old p. apply secs_good_stream in G. destruct (apply_patch_stream _ m' cd _ b t src old p G (ops_ok_nonneg _ (good_ok _ Hg))) as (p' & Ea). exists p'. rewrite Ea. cbn [app] in Hr.
    rewrite (perform_old _ _ _ _ _ (ops_ok_nonneg _ (good_ok _ Hg)) Hr). reflexivity.
  - destruct (secs_good_read _ _ _ G []) as (outs & Hp & Hall). rewrite app_nil_r in Hp. exists outs. split; [exact Hp|].
    refine (Forall2_to _ (fun s => Forall op_good (fst s) /\ h_nops (snd s) = zlen (fst s) /\ h_osize (snd s) = ops_len (fst s) /\ ops_len (fst s) <= 16777215 /\ h_format (snd s) = Interleaved /\ h_comp (snd s) = 0) _ _ _ _ Hall _).
    + intros [ops0 h0] [o1 o2] [E1 (B1 & B2 & _ & B4 & B5 & _)] Q. cbn [fst snd] in *. rewrite E1, B1, B2, B4, B5. exact Q.
    + apply Forall_concat_inv in Hg. rewrite Forall_map in Hg. rewrite Forall_forall in *. intros s Hin. destruct (T s Hin) as (T1 & T2 & T3 & T4 & T5). unfold max_win_size in T3. split; [now apply Hg|]. auto.
Qed.

(** C59 (finding). A stream with a sequence copy whose period and length are both above 65535 is never converted: the copy length is cut to 16 bits, and the writer then
    refuses the section because its output size does not match. (Nothing wrong is ever written without an error.) *)
Theorem C59_long_sequences_fail : forall m src msgs out, vcdiff_of src msgs out -> zlen src < 2 ^ 63 -> zlen out < 2 ^ 32 -> existsb long_seq (all_insts msgs) = true ->
  snd (convert_vcdiff m msgs) = Err InvalidData.
Proof.
  intros m src msgs out Hv Hs Ho Hl. destruct (convert_spec m src msgs out Hs Hv ltac:(lia)) as (L & (Hok & Hz & _ & P) & E). rewrite Hl in P. specialize (P eq_refl). rewrite E.
  destruct (pushes_bad m L (mkC [] 0 0)) as (b & [Eb|(c & Eb & Hc & H32 & Hlt)]).
  - unfold cany. cbn [c_win c_size c_nadd]. repeat split; try constructor; cbn; lia.
  - exact Hok.
  - cbn [c_size]. lia.
  - now right.
  - now rewrite Eb.
  - rewrite Eb. pose proof (any_write m c false Hc H32) as W. replace (ops_len (c_win c) =? c_size c) with false in W by lia. rewrite andb_false_r in W.
    cbn [wbind]. now destruct (plain_writer m (c_win c) (c_hdr c false)) as [o r].
Qed.

Local Ltac okv := vm_compute; repeat (split || constructor); intro; discriminate.
(** The stream of the crate's test_hello_micro ("hello" to "Hello! Hello!") meets the hypotheses of C58 and converts to these bytes. *)
Definition hello_msgs : list vmsg :=
  [VWin (Some 1) (Some 4) false; VInst (VAdd 1 [72; 33; 32]) (Some (VCopy CopyS 0 4 4)); VInst (VAdd 2 [33; 32]) (Some (VCopy (CopyT 11) 4 6 6)); VEndWin; VEof].
Example C58_hello : vcdiff_of [104; 101; 108; 108; 111] hello_msgs [72; 101; 108; 108; 111; 33; 32; 72; 101; 108; 108; 111; 33] /\
  convert_vcdiff Debug hello_msgs = ([0; 4; 13; 129; 72; 4; 2; 130; 33; 32; 70; 0], Ok tt).
Proof.
  split; [|vm_compute; reflexivity]. unfold vcdiff_of, hello_msgs. apply vsm_win_src; [lia|lia|vm_compute; discriminate|].
  apply (vsm_inst _ _ _ _ _ _ [72; 101; 108; 108; 111]).
  { apply vs_cons; [okv|]. apply vs_cons; [okv|]. vm_compute. constructor. }
  apply (vsm_inst _ _ _ _ _ _ [72; 101; 108; 108; 111; 33; 32; 72; 101; 108; 108; 111; 33]).
  { apply vs_cons; [okv|]. apply vs_cons; [okv|]. vm_compute. constructor. }
  apply vsm_end. apply vsm_eof.
Qed.
(** Its test_seq: a copy that runs past the end of what there is ("tererest"), and a window whose segment is taken from the target. *)
Definition seq_msgs : list vmsg :=
  [VWin None None false; VInst (VAdd 3 [116; 101; 114; 115; 116]) (Some (VCopy (CopyQ 3) 1 5 2)); VInst (VAdd 2 [115; 116]) None; VEndWin;
   VWin (Some 3) (Some 2) true; VInst (VCopy CopyS 0 2 2) (Some (VRun 3 7)); VEndWin; VEof].
Example C58_seq : vcdiff_of [] seq_msgs [116; 101; 114; 101; 114; 101; 115; 116; 101; 114; 7; 7; 7] /\
  convert_vcdiff Release seq_msgs = ([0; 6; 13; 131; 116; 101; 114; 66; 2; 65; 0; 130; 115; 116; 66; 4; 195; 7], Ok tt).
Proof.
  split; [|vm_compute; reflexivity]. unfold vcdiff_of, seq_msgs. apply vsm_win_none.
  apply (vsm_inst _ _ _ _ _ _ [116; 101; 114; 101; 114; 101]).
  { apply vs_cons; [okv|]. apply vs_cons; [okv|]. vm_compute. constructor. }
  apply (vsm_inst _ _ _ _ _ _ [116; 101; 114; 101; 114; 101; 115; 116]).
  { apply vs_cons; [okv|]. vm_compute. constructor. }
  apply vsm_end. apply vsm_win_trgt; [lia|lia|vm_compute; discriminate|].
  apply (vsm_inst _ _ _ _ _ _ [101; 114; 7; 7; 7]).
  { apply vs_cons; [okv|]. apply vs_cons; [okv|]. vm_compute. constructor. }
  apply vsm_end. apply vsm_eof.
Qed.
(** Hypotheses of C59: 70000 bytes, then the same 70000 bytes again as a sequence copy. *)
Definition seq_twice (d : list Z) : list vmsg := [VWin None None false; VInst (VAdd (zlen d) d) (Some (VCopy (CopyQ (zlen d)) 0 (zlen d + zlen d) (zlen d))); VEndWin; VEof].
Lemma seq_twice_ok d : Forall is_byte d -> 1 <= zlen d < 2 ^ 31 -> exists out, vcdiff_of [] (seq_twice d) out /\ zlen out = zlen d + zlen d.
Proof.
  intros Hb Hd.
  assert (H1 : vinst_ok (zlen (@nil Z)) (zlen (@nil Z ++ [])) (VAdd (zlen d) d)) by (cbn [vinst_ok]; unfold is_u32; split; [lia|split; [lia|exact Hb]]).
  assert (E1 : vstep ([] ++ []) (VAdd (zlen d) d) = [] ++ d) by (cbn [vstep app]; apply take_all; lia).
  assert (H2 : vinst_ok (zlen (@nil Z)) (zlen ([] ++ d)) (VCopy (CopyQ (zlen d)) 0 (zlen d + zlen d) (zlen d))) by (cbn [vinst_ok app]; unfold is_u32; rewrite (@zlen_nil Z); lia).
  destruct (vstep_len _ _ _ H2) as (_ & bs & E & Lb). exists (d ++ bs). split.
  - unfold vcdiff_of, seq_twice. apply vsm_win_none. apply (vsm_inst _ _ _ _ _ _ (d ++ bs)); [|apply vsm_end; apply vsm_eof].
    apply vs_cons; [exact H1|]. rewrite E1. apply vs_cons; [exact H2|]. rewrite E, <- app_assoc. apply vs_nil.
  - rewrite zlen_app, Lb. reflexivity.
Qed.
Example C59_instance : exists out, vcdiff_of [] (seq_twice (rep 5 70000)) out /\ zlen out < 2 ^ 32 /\ existsb long_seq (all_insts (seq_twice (rep 5 70000))) = true.
Proof.
  destruct (seq_twice_ok (rep 5 70000)) as (out & Ho & Hl).
  - apply Forall_forall. intros x Hx. apply repeat_spec in Hx. subst. unfold is_byte. lia.
  - rewrite zlen_rep. lia.
  - exists out. split; [exact Ho|]. rewrite Hl. cbn [all_insts seq_twice insts app existsb long_seq]. rewrite !zlen_rep. split; [lia|]. reflexivity.
Qed.

Print Assumptions C58_vcdiff_conversion.
Print Assumptions C59_long_sequences_fail.
