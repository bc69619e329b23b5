(** Properties C69-C72: what encode finds. A shared beginning is copied, not resent; an unchanged file costs only copies;
    the naive tests find prepended and appended data; a dictionary too short to be indexed is never used. *)
From Verif Require Import Base Spec SpecEnc MCommon MWriter MReader MDecoder MHasher MHashmap MOpMaker MTrgtMatcher MSrcMatcher MEncInner MEncode MLevels SpecApi
  PBase PSection PDecoder POpMaker PEncInner PTotal PTotal2 PEncode TOpMaker TEncode PFind.
Ltac Zify.zify_post_hook ::= idtac.
Arguments Z.add : simpl never.
Arguments Z.sub : simpl never.
Arguments Z.mul : simpl never.
Arguments Z.pow : simpl never.

(** What encode writes is read back as the operations made from its candidates. *)
Lemma encode_reads m m' cd c dict trgt patch : comp_lossless cd (cf_comp c) trgt -> Forall is_byte trgt -> zlen trgt < 2 ^ 63 ->
  zlen (source_of dict) < 2 ^ 63 -> encode m cd c dict trgt = (patch, Ok tt) ->
  exists cs ops, encode_inner m (inner_of c) (source_of dict) trgt = Ok cs /\ Forall (cand_sound (source_of dict) trgt) cs /\ cands_ordered cs /\
    translate_inner_ops m trgt cs = Ok ops /\ run_ops (source_of dict) [] ops = Some trgt /\ Forall op_good ops /\ reads_as m' cd patch ops.
Proof.
  intros Hcd Hb Ht Hs H. destruct (encode_good m m' cd c dict trgt patch Hcd Hb Ht Hs H) as (cs & ops & E1 & E2 & [Hg Hr] & _ & Hcat & _ & _ & Hsg).
  exists cs, ops. split; [exact E1|]. destruct (encode_inner_sound m (inner_of c) (source_of dict) trgt cs Hb ltac:(lia) ltac:(lia) E1) as [S1 S2].
  split; [exact S1|]. split; [exact S2|]. split; [exact E2|]. split; [exact Hr|]. split; [exact Hg|].
  destruct (secs_good_read _ _ _ Hsg []) as (outs & Hrd & Hall). rewrite app_nil_r in Hrd. exists outs, [].
  split; [exact Hrd|]. rewrite (Forall2_fst _ _ _ (fun _ _ X => proj1 X) Hall), sec_with_ops, Hcat. reflexivity.
Qed.

(** C69. If the target begins with [L] bytes of the beginning of the source (and does not begin with four equal bytes), then
    at most the rest of the target and 10 bytes are sent as literals, with every level, format, segment size and
    compression, if the source is long enough to be indexed. *)
Theorem C69_shared_beginning_not_resent : forall m m' cd c sc src trgt L patch, comp_lossless cd (cf_comp c) trgt ->
  Forall is_byte trgt -> zlen trgt < 2 ^ 63 -> zlen src < 2 ^ 63 ->
  cf_src c = Some sc -> 0 <= sc_step sc -> indexable (Z.max (sc_step sc) 1) (zlen src) -> cf_naive c = None ->
  10 <= zlen trgt -> 9 <= L -> L <= zlen src -> L <= zlen trgt -> take L src = take L trgt -> (forall b, take 4 trgt <> [b; b; b; b]) ->
  encode m cd c (Some src) trgt = (patch, Ok tt) ->
  exists ops, reads_as m' cd patch ops /\ run_ops src [] ops = Some trgt /\ adds_len ops <= zlen trgt - L + 10.
Proof.
  intros m m' cd c sc src trgt L patch Hcd Hb Ht Hs Esc Hst Hix Env H10 H9 HLs HLt Heq Hd H.
  destruct (encode_reads m m' cd c (Some src) trgt patch Hcd Hb Ht Hs H) as (cs & ops & E1 & S1 & S2 & E2 & Hr & Hg & Hrd). cbn [source_of] in *.
  rewrite !take_is_sub in Heq.
  assert (Hd' : first4_differ trgt) by (intros b Eb; apply (Hd b); rewrite take_is_sub; exact Eb).
  destruct (encode_inner_prefix m (inner_of c) src trgt sc L cs Hb Ht Hs Esc Env Hst Hix H10 ltac:(lia) HLt Heq Hd' E1) as (L' & rest & -> & HLL).
  exists ops. split; [exact Hrd|]. split; [exact Hr|].
  enough (adds_len ops <= zlen trgt - (L - 10)) by lia.
  apply (translate_literals m src trgt (MSrc 0 L' 0) rest ops (L - 10) Hb ltac:(lia) ltac:(lia) S1 S2); [|exact E2].
  intros r Hp Hrs. apply Forall_cons_iff in S1 as [S1a S1b].
  pose proof (pass1_clips m src trgt ltac:(lia) L rest (MSrc 0 L' 0) r S1a S1b S2 ltac:(unfold c_end; cbn; lia) Hp) as G. cbn [c_pos] in G.
  pose proof (clips_covered L r (sound_len _ _ _ Hrs)). lia.
Qed.

(** C70. Encoding an unchanged file always succeeds and costs one copy per 65535 bytes, nothing else. *)
Theorem C70_unchanged_file : forall m m' cd c sc src, comp_lossless cd (cf_comp c) src -> Forall is_byte src -> zlen src < 2 ^ 62 ->
  cf_src c = Some sc -> 0 <= sc_step sc -> legal_src m sc -> (forall tc, cf_trgt c = Some tc -> legal_trgt tc) -> legal_comp (cf_comp c) ->
  indexable (Z.max (sc_step sc) 1) (zlen src) -> 10 <= zlen src -> (forall b, take 4 src <> [b; b; b; b]) ->
  exists patch ops, encode m cd c (Some src) src = (patch, Ok tt) /\ reads_as m' cd patch ops /\ run_ops src [] ops = Some src /\
    zlen ops = (zlen src + 65534) / 65535 /\ Forall (fun x => is_dict_copy x = true) ops.
Proof.
  intros m m' cd c sc src Hcd Hb Hl Esc Hst Hls Hlt Hlc Hix H10 Hd.
  assert (Hd' : first4_differ src) by (intros b Eb; apply (Hd b); rewrite take_is_sub; exact Eb).
  pose proof (encode_inner_same m (inner_of c) src sc Hb Hl Esc Hst Hls Hlt Hix H10 Hd') as Ei.
  destruct (encode_total_cs m cd c (Some src) src Hb Hl ltac:(cbn [source_of]; lia) Hlc) as (patch & E); [eexists; exact Ei|].
  destruct (encode_reads m m' cd c (Some src) src patch Hcd Hb ltac:(lia) ltac:(cbn [source_of]; lia) E) as (cs & ops & E1 & S1 & S2 & E2 & Hr & Hg & Hrd). cbn [source_of] in *.
  rewrite Ei in E1. injection E1 as <-. exists patch, ops. split; [exact E|]. split; [exact Hrd|]. split; [exact Hr|].
  destruct (translate_single m src (zlen src) ops ltac:(lia) eq_refl E2) as [Hn Hf]. split; [exact Hn|].
  eapply Forall_impl; [|exact Hf]. intros x Hx. destruct x; cbn in Hx |- *; try contradiction. now rewrite Hx.
Qed.

(** C71. With the Append test the source in front of the target, and with the Prepend test the source at the end of the
    target, is not resent, whatever matchers are configured: at most 10 (6) bytes of it are literals. *)
Theorem C71_append_not_resent : forall m m' cd c src tail patch, comp_lossless cd (cf_comp c) (src ++ tail) ->
  Forall is_byte (src ++ tail) -> zlen (src ++ tail) < 2 ^ 63 -> (cf_src c <> None \/ cf_trgt c <> None) ->
  (cf_naive c = Some NAppend \/ cf_naive c = Some NAppendPrepend) -> tail <> [] ->
  encode m cd c (Some src) (src ++ tail) = (patch, Ok tt) ->
  exists ops, reads_as m' cd patch ops /\ run_ops src [] ops = Some (src ++ tail) /\ adds_len ops <= zlen tail + 10.
Proof.
  intros m m' cd c src tail patch Hcd Hb Ht Hm Hnv Hne H. assert (Hl := zlen_app src tail). pose proof (zlen_nonneg src) as Z1. pose proof (zlen_nonneg tail) as Z2.
  assert (Z3 : 0 < zlen tail) by (destruct tail; [contradiction|rewrite zlen_cons; pose proof (zlen_nonneg tail); lia]).
  destruct (encode_reads m m' cd c (Some src) (src ++ tail) patch Hcd Hb Ht ltac:(cbn [source_of]; lia) H) as (cs & ops & E1 & S1 & S2 & E2 & Hr & Hg & Hrd). cbn [source_of] in *.
  exists ops. split; [exact Hrd|]. split; [exact Hr|].
  destruct (Z.eq_dec (zlen src) 0) as [Ez|Ez].
  { pose proof (adds_len_bounds ops (good_ok _ Hg)). pose proof (run_ops_len src ops [] _ (ops_ok_nonneg _ (good_ok _ Hg)) Hr). rewrite (@zlen_nil Z) in *. lia. }
  assert (En : naive_tests (cf_naive c) src (src ++ tail) = ([MSrc 0 (zlen src) 0], zlen src, zlen (src ++ tail))).
  { unfold naive_tests. replace (zlen (src ++ tail) >? zlen src) with true by lia.
    assert (S : starts_with (src ++ tail) src = true) by (unfold starts_with; rewrite take_app by reflexivity; now apply list_eqb_eq).
    destruct Hnv as [-> | ->]; unfold or_else, naive_start; rewrite S; reflexivity. }
  destruct (encode_inner_append m (inner_of c) src (src ++ tail) [] (zlen (src ++ tail)) cs Hb Ht ltac:(lia) Hm ltac:(lia) ltac:(lia) En eq_refl eq_refl E1) as (rest & ->).
  enough (adds_len ops <= zlen (src ++ tail) - (zlen src - 10)) by lia.
  apply (translate_literals m src (src ++ tail) (MSrc 0 (zlen src) 0) rest ops (zlen src - 10) Hb ltac:(lia) ltac:(lia) S1 S2); [|exact E2].
  intros r Hp Hrs. apply Forall_cons_iff in S1 as [S1a S1b].
  pose proof (pass1_clips m src (src ++ tail) ltac:(lia) (zlen src) rest (MSrc 0 (zlen src) 0) r S1a S1b S2 ltac:(unfold c_end; cbn; lia) Hp) as G. cbn [c_pos] in G.
  pose proof (clips_covered (zlen src) r (sound_len _ _ _ Hrs)). lia.
Qed.
Theorem C71_prepend_not_resent : forall m m' cd c src head patch, comp_lossless cd (cf_comp c) (head ++ src) ->
  Forall is_byte (head ++ src) -> zlen (head ++ src) < 2 ^ 63 -> (cf_src c <> None \/ cf_trgt c <> None) ->
  (cf_naive c = Some NPrepend \/ cf_naive c = Some NPrependAppend) -> head <> [] ->
  encode m cd c (Some src) (head ++ src) = (patch, Ok tt) ->
  exists ops, reads_as m' cd patch ops /\ run_ops src [] ops = Some (head ++ src) /\ adds_len ops <= zlen head + 6.
Proof.
  intros m m' cd c src head patch Hcd Hb Ht Hm Hnv Hne H. assert (Hl := zlen_app head src). pose proof (zlen_nonneg src) as Z1. pose proof (zlen_nonneg head) as Z2.
  assert (Z3 : 0 < zlen head) by (destruct head; [contradiction|rewrite zlen_cons; pose proof (zlen_nonneg head); lia]).
  destruct (encode_reads m m' cd c (Some src) (head ++ src) patch Hcd Hb Ht ltac:(cbn [source_of]; lia) H) as (cs & ops & E1 & S1 & S2 & E2 & Hr & Hg & Hrd). cbn [source_of] in *.
  exists ops. split; [exact Hrd|]. split; [exact Hr|].
  destruct (Z.eq_dec (zlen src) 0) as [Ez|Ez].
  { pose proof (adds_len_bounds ops (good_ok _ Hg)). pose proof (run_ops_len src ops [] _ (ops_ok_nonneg _ (good_ok _ Hg)) Hr). rewrite (@zlen_nil Z) in *. lia. }
  assert (En : naive_tests (cf_naive c) src (head ++ src) = ([], 0, zlen head)).
  { unfold naive_tests. replace (zlen (head ++ src) >? zlen src) with true by lia.
    assert (S : ends_with (head ++ src) src = true).
    { unfold ends_with. apply andb_true_iff. split; [lia|]. apply list_eqb_eq. apply drop_app. lia. }
    destruct Hnv as [-> | ->]; unfold or_else, naive_end; rewrite S; do 2 f_equal; lia. }
  destruct (encode_inner_prepend m (inner_of c) src (head ++ src) (zlen head) cs Hm ltac:(lia) ltac:(lia) En ltac:(lia) E1) as (l & ->).
  enough (adds_len ops <= zlen (head ++ src) - (zlen src - 6)) by lia.
  destruct l as [|one l]; cbn [app] in *.
  - apply (translate_literals m src (head ++ src) (MSrc 0 (zlen src) (zlen head)) [] ops (zlen src - 6) Hb ltac:(lia) ltac:(lia) S1 S2); [|exact E2].
    intros r Hp _. cbn [pass1] in Hp. injection Hp as <-. cbn. lia.
  - apply (translate_literals m src (head ++ src) one (l ++ [MSrc 0 (zlen src) (zlen head)]) ops (zlen src - 6) Hb ltac:(lia) ltac:(lia) S1 S2); [|exact E2].
    intros r Hp Hrs. apply Forall_cons_iff in S1 as [S1a S1b].
    pose proof (pass1_cliprs m src (head ++ src) ltac:(lia) (MSrc 0 (zlen src) (zlen head)) l one r S1a S1b S2 Hp) as G. cbn [c_pos c_len] in G.
    pose proof (cliprs_covered (zlen head) r (sound_len _ _ _ Hrs)). lia.
Qed.

Lemma run_ops_no_dict src : forall ops out, existsb is_dict_copy ops = false -> run_ops [] out ops = run_ops src out ops.
Proof.
  induction ops as [|x ops IH]; intros out Hnd; [reflexivity|]. cbn [existsb] in Hnd. apply orb_false_iff in Hnd as [H1 H2]. cbn [run_ops].
  replace (op_bytes [] out x) with (op_bytes src out x) by (destruct x as [y|b n|[]]; [reflexivity|reflexivity|discriminate|reflexivity]).
  destruct (op_bytes src out x); [|reflexivity]. now apply IH.
Qed.
(** C72. A dictionary too short to be indexed is never used: for every target the patch has no dictionary copy (so an
    unchanged short file is sent in full). *)
Theorem C72_short_dictionary_ignored : forall m m' cd c src trgt patch, comp_lossless cd (cf_comp c) trgt ->
  Forall is_byte trgt -> zlen trgt < 2 ^ 63 -> zlen src < 2 ^ 63 -> cf_naive c = None ->
  match cf_src c with Some sc => 0 <= sc_step sc /\ ~ indexable (Z.max (sc_step sc) 1) (zlen src) | None => True end ->
  encode m cd c (Some src) trgt = (patch, Ok tt) ->
  exists ops, reads_as m' cd patch ops /\ existsb is_dict_copy ops = false /\ run_ops [] [] ops = Some trgt.
Proof.
  intros m m' cd c src trgt patch Hcd Hb Ht Hs Env Hix H.
  destruct (encode_reads m m' cd c (Some src) trgt patch Hcd Hb Ht ltac:(cbn [source_of]; lia) H) as (cs & ops & E1 & S1 & S2 & E2 & Hr & Hg & Hrd). cbn [source_of] in *.
  exists ops. split; [exact Hrd|].
  pose proof (encode_inner_no_src m (inner_of c) src trgt cs Hb Ht Hs Env Hix E1) as Hn.
  pose proof (translate_no_src m src trgt cs ops Hb ltac:(lia) ltac:(lia) S1 S2 Hn E2) as Hnd. split; [exact Hnd|].
  rewrite <- Hr. now apply run_ops_no_dict.
Qed.

(** Examples: a shared beginning of 30 bytes with the default configuration (step 18), an unchanged file, the naive tests,
    and a source of 26 bytes, one short of what the default configuration indexes. *)
Definition ex69_src := map Z.of_nat (seq 10 40).
Definition ex69_trgt := map Z.of_nat (seq 10 30) ++ [200; 201; 202].
Definition ex69_cfg := mkConfig (Some (mkSC 18 None)) None None Interleaved 16777215 None None.
Example C69_example : config_default Release = Ok ex69_cfg /\ indexable 18 (zlen ex69_src) /\ take 30 ex69_src = take 30 ex69_trgt /\
  (forall b, take 4 ex69_trgt <> [b; b; b; b]) /\ forall m, encode m toy ex69_cfg (Some ex69_src) ex69_trgt = ([0; 2; 33; 30; 0; 131; 200; 201; 202], Ok tt).
Proof.
  split; [vm_compute; reflexivity|]. split; [vm_compute; discriminate|]. split; [vm_compute; reflexivity|].
  split; [intro b; change (take 4 ex69_trgt) with [10; 11; 12; 13]; congruence|]. intros []; vm_compute; reflexivity.
Qed.
Example C70_example : legal_src Debug (mkSC 18 None) /\ indexable (Z.max 18 1) 27 /\ (27 + 65534) / 65535 = 1 /\
  forall m, encode m toy ex69_cfg (Some (take 27 ex69_src)) (take 27 ex69_src) = ([0; 1; 27; 27; 0], Ok tt).
Proof. split; [exact I|]. split; [vm_compute; discriminate|]. split; [reflexivity|]. intros []; vm_compute; reflexivity. Qed.
Example C71_example : forall m,
  encode m toy (mkConfig (Some (mkSC 18 None)) None None Interleaved 16777215 (Some NAppend) None) (Some ex69_src) (ex69_src ++ [1; 2; 3]) =
    ([0; 2; 43; 40; 0; 131; 1; 2; 3], Ok tt) /\
  encode m toy (mkConfig (Some (mkSC 18 None)) None None Interleaved 16777215 (Some NPrepend) None) (Some ex69_src) ([1; 2; 3] ++ ex69_src) =
    ([0; 2; 43; 131; 1; 2; 3; 40; 0], Ok tt).
Proof. intros []; (split; vm_compute; reflexivity). Qed.
Example C72_example : ~ indexable (Z.max 18 1) (zlen (take 26 ex69_src)) /\
  forall m, encode m toy ex69_cfg (Some (take 26 ex69_src)) (take 26 ex69_src) = ([0; 1; 26; 154] ++ take 26 ex69_src, Ok tt).
Proof. split; [vm_compute; intro H; now apply H|]. intros []; vm_compute; reflexivity. Qed.

Print Assumptions C69_shared_beginning_not_resent.
Print Assumptions C70_unchanged_file.
Print Assumptions C71_append_not_resent.
Print Assumptions C71_prepend_not_resent.
Print Assumptions C72_short_dictionary_ignored.
