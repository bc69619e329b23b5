(** Overflow checks and debug assertions only ever turn a result into a panic: a computation in an overflow-checked build panics, or does exactly what it
    does without the checks. One lemma per function of the model that depends on the build mode. *)
From Verif Require Import Base Spec SpecEnc MCommon MWriter MReader MDecoder MOpMaker MHasher MHashmap MTrgtMatcher MSrcMatcher MEncInner MEncode MLevels
  MMerger MTranscoder SpecVcd MVcdiff.
Arguments Z.add : simpl never.
Arguments Z.sub : simpl never.
Arguments Z.mul : simpl never.
Arguments Z.pow : simpl never.

Definition rle {A} (a b : res A) : Prop := a = Panic \/ a = b.
Definition wle {S A} (a b : S * res A) : Prop := snd a = Panic \/ a = b.
Lemma rle_refl {A} (a : res A) : rle a a. Proof. now right. Qed.
Lemma rle_panic {A} (a : res A) : rle Panic a. Proof. now left. Qed.
Lemma wle_refl {S A} (a : S * res A) : wle a a. Proof. now right. Qed.
Lemma rle_bind {A B} (a b : res A) (f g : A -> res B) : rle a b -> (forall x, rle (f x) (g x)) -> rle (bind a f) (bind b g).
Proof. intros [->| ->] H; [now left|]. destruct b; cbn; [apply H|now right..]. Qed.
(** Where only the checked build evaluates something. *)
Lemma rle_bind_skip {A B} (a : res A) (f : A -> res B) (g : res B) (x0 : A) : (a = Panic \/ exists x, a = Ok x /\ rle (f x) g) -> rle (bind a f) g.
Proof. intros [->|(x & -> & H)]; [now left|exact H]. Qed.
Lemma wle_bind {A B} (a b : W A) (f g : A -> W B) : wle a b -> (forall x, wle (f x) (g x)) -> wle (wbind a f) (wbind b g).
Proof.
  intros [H| ->] Hf.
  - left. destruct a as [o r]. cbn in H. subst r. reflexivity.
  - destruct b as [o [x|e| |]]; cbn; [|now right..]. destruct (Hf x) as [H|H].
    + left. destruct (f x) as [o' r']. cbn in *. exact H.
    + right. now rewrite H.
Qed.
Lemma wle_lift {A} (a b : res A) : rle a b -> wle (wlift a) (wlift b).
Proof. intros [->| ->]; [left|right]; reflexivity. Qed.

Lemma arith_rle wrap v : rle (arith Debug wrap v) (arith Release wrap v).
Proof. unfold arith. destruct (wrap v =? v); [apply rle_refl|apply rle_panic]. Qed.
Lemma usub_rle a b : rle (usub Debug a b) (usub Release a b). Proof. apply arith_rle. Qed.
Lemma dassert_rle b : rle (debug_assert_ Debug b) (debug_assert_ Release b).
Proof. unfold debug_assert_, assert_. destruct b; [apply rle_refl|apply rle_panic]. Qed.
Lemma slice_shape {A} (l : list A) a b : slice l a b = Panic \/ exists x, slice l a b = Ok x.
Proof. unfold slice. destruct (_ && _); eauto. Qed.
Lemma assert_shape b : assert_ b = Panic \/ assert_ b = Ok tt. Proof. destruct b; cbn; auto. Qed.
(** Checks made of slices and an assertion. *)
Lemma check2_rle (l1 l2 : list Z) a b c d : rle (do x <- slice l1 a b; do y <- slice l2 c d; assert_ (list_eqb x y)) (Ok tt).
Proof.
  destruct (slice_shape l1 a b) as [->|(x & ->)]; [now left|]. destruct (slice_shape l2 c d) as [->|(y & ->)]; [now left|].
  cbn [bind]. destruct (assert_shape (list_eqb x y)) as [->| ->]; [now left|now right].
Qed.
Lemma check_ops_shape src trgt : forall ops o, check_ops src trgt o ops = Panic \/ exists b, check_ops src trgt o ops = Ok b.
Proof.
  induction ops as [|x ops IH]; intro o; cbn [check_ops]; [eauto|]. cbv zeta.
  destruct (slice_shape trgt o (o + oal x)) as [->|(y & ->)]; [now left|]. cbn [bind].
  destruct x as [bs|b n|[] a n]; cbn [bind].
  - destruct (list_eqb y bs); [apply IH|eauto].
  - destruct (forallb _ y); [apply IH|eauto].
  - destruct (slice_shape src a (a + n)) as [->|(z & ->)]; [now left|]. cbn [bind]. destruct (list_eqb y z); [apply IH|eauto].
  - destruct (slice_shape trgt a (a + n)) as [->|(z & ->)]; [now left|]. cbn [bind]. destruct (list_eqb y z); [apply IH|eauto].
Qed.
Lemma check_ops_rle src trgt o ops : rle (do b <- check_ops src trgt o ops; assert_ b) (Ok tt).
Proof.
  destruct (check_ops_shape src trgt ops o) as [->|(b & ->)]; [now left|]. cbn [bind]. destruct (assert_shape b) as [->| ->]; [now left|now right].
Qed.

Create HintDb mono.
#[export] Hint Resolve rle_refl wle_refl rle_panic arith_rle usub_rle dassert_rle check2_rle check_ops_rle : mono.
Ltac mono1 :=
  match goal with
  | |- rle ?x ?x => apply rle_refl
  | |- wle ?x ?x => apply wle_refl
  | |- rle Panic _ => apply rle_panic
  | |- rle (bind _ _) (bind _ _) => apply rle_bind; [|intro]
  | |- wle (wbind _ _) (wbind _ _) => apply wle_bind; [|intro]
  | |- wle (wlift _) (wlift _) => apply wle_lift
  | |- rle (let '(_, _) := ?x in _) _ => destruct x
  | |- wle (let '(_, _) := ?x in _) _ => destruct x
  | |- rle (match ?x with _ => _ end) (match ?x with _ => _ end) => destruct x
  | |- wle (match ?x with _ => _ end) (match ?x with _ => _ end) => destruct x
  | |- _ => progress cbv zeta
  | |- _ => solve [auto with mono nocore]
  end.
Ltac mono := repeat mono1.

(** common *)
Lemma shl_rle v s : rle (shl_u64 Debug v s) (shl_u64 Release v s). Proof. unfold shl_u64. mono. Qed.
#[export] Hint Resolve shl_rle : mono.
Lemma uvar_loop_rle bs : forall r s, rle (read_u_varint_loop Debug r s bs) (read_u_varint_loop Release r s bs).
Proof. induction bs as [|b bs IH]; intros; cbn [read_u_varint_loop]; mono. Qed.
Lemma uvar_rle bs : rle (read_u_varint Debug bs) (read_u_varint Release bs). Proof. apply uvar_loop_rle. Qed.
#[export] Hint Resolve uvar_rle : mono.
Lemma ivar_rle bs : rle (read_i_varint Debug bs) (read_i_varint Release bs). Proof. unfold read_i_varint. mono. Qed.
Lemma diffu_rle c i : rle (diff_addresses_to_u64 Debug c i) (diff_addresses_to_u64 Release c i). Proof. unfold diff_addresses_to_u64. mono. Qed.
Lemma diffi_rle c i : rle (diff_addresses_to_i64 Debug c i) (diff_addresses_to_i64 Release c i). Proof. unfold diff_addresses_to_i64. mono. Qed.
#[export] Hint Resolve ivar_rle diffu_rle diffi_rle : mono.

(** reader *)
Lemma header_rle bs : rle (read_section_header Debug bs) (read_section_header Release bs). Proof. unfold read_section_header. mono. Qed.
Lemma op_rle d o i bs : rle (read_op Debug d o i bs) (read_op Release d o i bs). Proof. unfold read_op. mono. Qed.
#[export] Hint Resolve header_rle op_rle : mono.
Lemma ops_loop_rle f : forall k n d o cs na bs, rle (read_ops_loop k Debug f n d o cs na bs) (read_ops_loop k Release f n d o cs na bs).
Proof. induction k as [|k IH]; intros; cbn [read_ops_loop]; mono. Qed.
#[export] Hint Resolve ops_loop_rle : mono.
Lemma ops_rle h bs : rle (read_ops_no_comp Debug h bs) (read_ops_no_comp Release h bs). Proof. unfold read_ops_no_comp. mono. Qed.
#[export] Hint Resolve ops_rle : mono.
Lemma section_rle bs : rle (read_section Debug bs) (read_section Release bs). Proof. unfold read_section. mono. Qed.
#[export] Hint Resolve section_rle : mono.
Lemma iter_rle it : rle (iter_next Debug it) (iter_next Release it). Proof. unfold iter_next. mono. Qed.

(** decoder *)
Lemma apply_loop_rle n1 n2 : (forall bs, rle (n1 bs) (n2 bs)) -> forall k dict bs s pos, wle (apply_loop n1 k dict bs s pos) (apply_loop n2 k dict bs s pos).
Proof.
  intro H. induction k as [|k IH]; intros; cbn [apply_loop]; [apply wle_refl|]. destruct (H bs) as [->| ->]; [now left|]. mono.
Qed.
Lemma no_sec_rle dict p s : wle (apply_no_sec_comp Debug dict p s) (apply_no_sec_comp Release dict p s).
Proof. apply apply_loop_rle. apply section_rle. Qed.
Lemma next_rle cd bs : rle (next_section Debug cd bs) (next_section Release cd bs).
Proof.
  unfold next_section. apply rle_bind; [apply header_rle|]. intros [h r]. destruct (h_comp h =? 1); [|mono].
  destruct (no_sec_rle None r (mkSink [] 0)) as [E| ->]; [|mono].
  destruct (apply_no_sec_comp Debug None r (mkSink [] 0)) as [s q]. cbn in E. subst q. now left.
Qed.
#[export] Hint Resolve next_rle : mono.
Lemma apply_patch_rle cd p dict s : wle (apply_patch Debug cd p dict s) (apply_patch Release cd p dict s).
Proof.
  unfold apply_patch. destruct (apply_loop_rle _ _ (next_rle cd) (S (length p)) dict p s 0) as [E| ->]; [|apply wle_refl].
  destruct (apply_loop (next_section Debug cd) _ _ _ _ _) as [s' q]. cbn in E. subst q. now left.
Qed.

(** writer *)
Lemma wheader_rle h : wle (write_section_header Debug h) (write_section_header Release h). Proof. unfold write_section_header. mono. Qed.
Lemma addtl_rle x d o : wle (write_op_addtl Debug x d o) (write_op_addtl Release x d o). Proof. unfold write_op_addtl. mono. Qed.
#[export] Hint Resolve wheader_rle addtl_rle : mono.
Lemma wloop_rle f : forall ops d o t a ad, wle (write_ops_loop Debug f ops d o t a ad) (write_ops_loop Release f ops d o t a ad).
Proof. induction ops as [|x ops IH]; intros; cbn [write_ops_loop]; mono. Qed.
#[export] Hint Resolve wloop_rle : mono.
Lemma wops_rle ops h : wle (write_ops Debug ops h) (write_ops Release ops h). Proof. unfold write_ops. mono. Qed.
#[export] Hint Resolve wops_rle : mono.

(** encoder *)
Lemma np2_rle n : rle (next_power_of_two Debug n) (next_power_of_two Release n). Proof. unfold next_power_of_two. mono. Qed.
#[export] Hint Resolve np2_rle : mono.
Lemma tbits_rle n : rle (table_bits Debug n) (table_bits Release n). Proof. unfold table_bits. mono. Qed.
#[export] Hint Resolve tbits_rle : mono.
Lemma tnew_rle n b : rle (table_new Debug n b) (table_new Release n b). Proof. unfold table_new. mono. Qed.
#[export] Hint Resolve tnew_rle : mono.
Lemma chain_loop_rle c cur hash : forall k last, rle (chain_next_loop k Debug c last cur hash) (chain_next_loop k Release c last cur hash).
Proof. induction k as [|k IH]; intros; cbn [chain_next_loop]; mono. Qed.
Lemma chain_rle c last cur hash : rle (chain_next Debug c last cur hash) (chain_next Release c last cur hash). Proof. apply chain_loop_rle. Qed.
#[export] Hint Resolve chain_rle : mono.
Lemma find_loop_rle t trgt : forall k once last ch best bl, rle (find_trgt_loop k Debug t trgt once last ch best bl) (find_trgt_loop k Release t trgt once last ch best bl).
Proof. induction k as [|k IH]; intros; cbn [find_trgt_loop]; mono. Qed.
#[export] Hint Resolve find_loop_rle : mono.
Lemma find_trgt_rle t trgt mm : rle (find_best_trgt_match Debug t trgt mm) (find_best_trgt_match Release t trgt mm). Proof. unfold find_best_trgt_match. mono. Qed.
Lemma tbuild_rle c trgt p : rle (trgt_build Debug c trgt p) (trgt_build Release c trgt p). Proof. unfold trgt_build. mono. Qed.
Lemma ext_rle src a trgt b : rle (extend_src_match Debug src a trgt b) (extend_src_match Release src a trgt b). Proof. unfold extend_src_match. mono. Qed.
#[export] Hint Resolve find_trgt_rle tbuild_rle ext_rle : mono.
Lemma find_src_rle s src trgt : rle (find_best_src_match Debug s src trgt) (find_best_src_match Release s src trgt). Proof. unfold find_best_src_match. mono. Qed.
Lemma store_rle s h p : rle (src_store Debug s h p) (src_store Release s h p). Proof. unfold src_store. mono. Qed.
Lemma win_rle s c : rle (window_range Debug s c) (window_range Release s c). Proof. unfold window_range. mono. Qed.
#[export] Hint Resolve find_src_rle store_rle win_rle : mono.
Lemma hsteps_rle src lo : forall n s, rle (hash_steps n Debug s src lo) (hash_steps n Release s src lo).
Proof. induction n as [|n IH]; intros; cbn [hash_steps]; mono. Qed.
Lemma hroll_rle src lo : forall n s h, rle (hash_roll n Debug s src lo h) (hash_roll n Release s src lo h).
Proof. induction n as [|n IH]; intros; cbn [hash_roll]; mono. Qed.
#[export] Hint Resolve hsteps_rle hroll_rle : mono.
Lemma addsp_rle s c src : rle (add_start_positions Debug s c src) (add_start_positions Release s c src). Proof. unfold add_start_positions. mono. Qed.
#[export] Hint Resolve addsp_rle : mono.
Lemma sbuild_rle c src p trgt : rle (src_build Debug c src p trgt) (src_build Release c src p trgt). Proof. unfold src_build. mono. Qed.
Lemma seek_rle s src trgt c : rle (src_seek Debug s src trgt c) (src_seek Release s src trgt c). Proof. unfold src_seek. mono. Qed.
#[export] Hint Resolve sbuild_rle seek_rle : mono.
Lemma start_rle src trgt e : rle (start_new_match Debug src trgt e) (start_new_match Release src trgt e). Proof. unfold start_new_match, opt_map. mono. Qed.
Lemma try_run_rle trgt e : rle (try_run Debug trgt e) (try_run Release trgt e). Proof. apply rle_refl. Qed.
Lemma take_run_rle trgt w e : rle (take_run Debug trgt w e) (take_run Release trgt w e). Proof. unfold take_run. mono. Qed.
Lemma try_src_rle src trgt mx e : rle (try_src Debug src trgt mx e) (try_src Release src trgt mx e). Proof. unfold try_src. mono. Qed.
Lemma try_trgt_rle trgt mx e : rle (try_trgt Debug trgt mx e) (try_trgt Release trgt mx e). Proof. unfold try_trgt. mono. Qed.
#[export] Hint Resolve start_rle try_run_rle take_run_rle try_src_rle try_trgt_rle : mono.
Lemma try_match_rle src trgt mx e : rle (try_match Debug src trgt mx e) (try_match Release src trgt mx e). Proof. unfold try_match. mono. Qed.
Lemma found_rle lz mx e n : rle (found_match Debug lz mx e n) (found_match Release lz mx e n). Proof. unfold found_match. mono. Qed.
#[export] Hint Resolve try_match_rle found_rle : mono.
Lemma estep_rle src trgt lz mx e : rle (estep Debug src trgt lz mx e) (estep Release src trgt lz mx e). Proof. unfold estep. mono. Qed.
#[export] Hint Resolve estep_rle : mono.
Lemma eloop_rle src trgt lz mx : forall k e, rle (eloop k Debug src trgt lz mx e) (eloop k Release src trgt lz mx e).
Proof. induction k as [|k IH]; intros; cbn [eloop]; mono. Qed.
#[export] Hint Resolve eloop_rle : mono.
Lemma inner_rle c src trgt : rle (encode_inner Debug c src trgt) (encode_inner Release c src trgt). Proof. unfold encode_inner, opt_map. mono. Qed.
Lemma set_o_rle c p : rle (set_o_pos Debug c p) (set_o_pos Release c p). Proof. unfold set_o_pos. mono. Qed.
#[export] Hint Resolve inner_rle set_o_rle : mono.
Lemma pass1_rle : forall rest one, rle (pass1 Debug one rest) (pass1 Release one rest).
Proof. induction rest as [|two rest IH]; intros; cbn [pass1]; mono. Qed.
#[export] Hint Resolve pass1_rle : mono.
Lemma translate_rle trgt cs : rle (translate_inner_ops Debug trgt cs) (translate_inner_ops Release trgt cs). Proof. unfold translate_inner_ops. mono. Qed.
#[export] Hint Resolve translate_rle : mono.
Lemma wsec_rle w1 w2 f src trgt : (forall ops h, wle (w1 ops h) (w2 ops h)) -> forall secs cur, wle (write_sections Debug w1 f src trgt cur secs) (write_sections Release w2 f src trgt cur secs).
Proof. intro H. induction secs as [|[ops h] secs IH]; intros; cbn [write_sections]; mono. Qed.
Lemma encode_with_rle w1 w2 ic f seg src trgt : (forall ops h, wle (w1 ops h) (w2 ops h)) -> wle (encode_with Debug w1 ic f seg src trgt) (encode_with Release w2 ic f seg src trgt).
Proof. intro H. unfold encode_with. mono. now apply wsec_rle. Qed.
Lemma plain_rle ops h : wle (plain_writer Debug ops h) (plain_writer Release ops h). Proof. unfold plain_writer. mono. Qed.
Lemma nocomp_rle c d : wle (encode_nocomp Debug c d) (encode_nocomp Release c d). Proof. apply encode_with_rle. apply plain_rle. Qed.
#[export] Hint Resolve plain_rle nocomp_rle : mono.
Lemma sw_rle cd sc ops h : wle (section_writer Debug cd sc ops h) (section_writer Release cd sc ops h).
Proof.
  unfold section_writer. destruct sc as [comp|]; [|apply plain_rle]. cbv zeta. apply wle_bind; [apply wheader_rle|]. intros _.
  destruct (wops_rle ops (set_comp h (algo_value comp))) as [E| ->]; [|mono].
  destruct (write_ops Debug ops _) as [b r]. cbn in E. subst r. now left.
Qed.
#[export] Hint Resolve sw_rle : mono.
Lemma encode_rle cd c dict trgt : wle (encode Debug cd c dict trgt) (encode Release cd c dict trgt). Proof. apply encode_with_rle. apply sw_rle. Qed.

(** levels *)
Lemma rnew_rle a b c d : rle (ranger_new Debug a b c d) (ranger_new Release a b c d). Proof. unfold ranger_new. mono. Qed.
Lemma rmap_rle r v : rle (ranger_map Debug r v) (ranger_map Release r v). Proof. unfold ranger_map. mono. Qed.
#[export] Hint Resolve rnew_rle rmap_rle : mono.
Lemma slevel_rle l : rle (src_level Debug l) (src_level Release l). Proof. unfold src_level. mono. Qed.
Lemma tlevel_rle l : rle (trgt_level Debug l) (trgt_level Release l). Proof. unfold trgt_level. mono. Qed.
#[export] Hint Resolve slevel_rle tlevel_rle : mono.
Lemma level_rle l b sc : rle (config_level Debug l b sc) (config_level Release l b sc). Proof. unfold config_level. mono. Qed.
Lemma default_rle : rle (config_default Debug) (config_default Release). Proof. unfold config_default. mono. Qed.

(** merger, transcoder *)
Lemma skip_rle o n : rle (op_skip Debug o n) (op_skip Release o n). Proof. unfold op_skip. mono. Qed.
Lemma trunc_rle o n : rle (op_trunc Debug o n) (op_trunc Release o n). Proof. unfold op_trunc. mono. Qed.
#[export] Hint Resolve skip_rle trunc_rle : mono.
Lemma exact_loop_rle a b : forall ops, rle (exact_loop Debug a b ops) (exact_loop Release a b ops).
Proof. induction ops as [|[p o] ops IH]; cbn [exact_loop]; mono. Qed.
#[export] Hint Resolve exact_loop_rle : mono.
Lemma exact_rle ops a n : rle (get_exact_slice Debug ops a n) (get_exact_slice Release ops a n). Proof. unfold get_exact_slice. mono. Qed.
#[export] Hint Resolve exact_rle : mono.
Lemma extract_loop_rle cd : forall k bs pos s, rle (extract_loop k Debug cd bs pos s) (extract_loop k Release cd bs pos s).
Proof. induction k as [|k IH]; intros; cbn [extract_loop]; mono. Qed.
Lemma extract_rle cd p : rle (extract_patch_instructions Debug cd p) (extract_patch_instructions Release cd p). Proof. apply extract_loop_rle. Qed.
#[export] Hint Resolve extract_rle : mono.
Lemma deref_loop_rle : forall ex out pos, rle (deref_loop Debug ex out pos) (deref_loop Release ex out pos).
Proof. induction ex as [|[p o] ex IH]; intros; cbn [deref_loop]; mono. Qed.
Lemma deref_rle ex : rle (deref_copy_o Debug ex) (deref_copy_o Release ex). Proof. apply deref_loop_rle. Qed.
#[export] Hint Resolve deref_rle : mono.
Lemma new_rle cd p : rle (merger_new Debug cd p) (merger_new Release cd p). Proof. unfold merger_new. mono. Qed.
Lemma merge_loop_rle t pred : forall ix sh, rle (merge_loop Debug t pred ix sh) (merge_loop Release t pred ix sh).
Proof. induction ix as [|i ix IH]; intros; cbn [merge_loop]; mono. Qed.
#[export] Hint Resolve merge_loop_rle : mono.
Lemma merge_rle cd g p : rle (merger_merge Debug cd g p) (merger_merge Release cd g p). Proof. unfold merger_merge. mono. Qed.
Lemma all_rle w1 w2 f : (forall ops h, wle (w1 ops h) (w2 ops h)) -> forall secs, wle (write_all_sections w1 f secs) (write_all_sections w2 f secs).
Proof. intro H. induction secs as [|[ops h] secs IH]; cbn [write_all_sections]; mono. Qed.
Lemma summary_rle cd ops w f sc : wle (summary_write Debug cd ops w f sc) (summary_write Release cd ops w f sc).
Proof. unfold summary_write. cbv zeta. apply all_rle. apply sw_rle. Qed.
Lemma join_rle ops : rle (join_bound Debug ops) (join_bound Release ops). Proof. unfold join_bound. mono. Qed.
#[export] Hint Resolve join_rle : mono.
Lemma opt_rle ops : rle (optimize Debug ops) (optimize Release ops). Proof. unfold optimize. mono. Qed.
#[export] Hint Resolve opt_rle : mono.
Lemma transcode_rle cd p f sc seg : wle (transcode Debug cd p f sc seg) (transcode Release cd p f sc seg).
Proof. unfold transcode. mono. apply all_rle. apply sw_rle. Qed.

(** vcdiff *)
Lemma vwrite_rle s b : wle (v_write Debug s b) (v_write Release s b). Proof. unfold v_write. mono. Qed.
#[export] Hint Resolve vwrite_rle : mono.
Lemma vroom_rle s c : wle (v_room Debug s c) (v_room Release s c). Proof. unfold v_room. mono. Qed.
Lemma vpush_rle s o c n : wle (v_push Debug s o c n) (v_push Release s o c n). Proof. unfold v_push. mono. Qed.
Lemma vadv_rle s n : wle (v_advance Debug s n) (v_advance Release s n). Proof. unfold v_advance. mono. Qed.
#[export] Hint Resolve vroom_rle vpush_rle vadv_rle : mono.
Lemma vadds_rle : forall k s r d, wle (v_adds Debug k s r d) (v_adds Release k s r d).
Proof. induction k as [|k IH]; intros; cbn [v_adds]; mono. Qed.
Lemma vruns_rle b : forall k s r, wle (v_runs Debug k s r b) (v_runs Release k s r b).
Proof. induction k as [|k IH]; intros; cbn [v_runs]; mono. Qed.
Lemma vseq_rle src a n : forall k s r, wle (v_seq Debug k s r src a n) (v_seq Release k s r src a n).
Proof. induction k as [|k IH]; intros; cbn [v_seq]; mono. Qed.
Lemma vcopies_rle src : forall k s r a, wle (v_copies Debug k s r src a) (v_copies Release k s r src a).
Proof. induction k as [|k IH]; intros; cbn [v_copies]; mono. Qed.
#[export] Hint Resolve vadds_rle vruns_rle vseq_rle vcopies_rle : mono.
Lemma vinst_rle s i : wle (v_inst Debug s i) (v_inst Release s i). Proof. unfold v_inst. mono. Qed.
#[export] Hint Resolve vinst_rle : mono.
Lemma vloop_rle : forall ms s, wle (v_loop Debug s ms) (v_loop Release s ms).
Proof. induction ms as [|x ms IH]; intros; cbn [v_loop]; mono. Qed.
#[export] Hint Resolve vloop_rle : mono.
Lemma convert_rle ms : wle (convert_vcdiff Debug ms) (convert_vcdiff Release ms). Proof. unfold convert_vcdiff. mono. Qed.
