(** Property C33: encode returns Ok, and never loops, in the configurations that avoid the findings C32, C40, C41 and C43. *)
From Verif Require Import Base Spec SpecEnc MCommon MWriter MReader MDecoder MTrgtMatcher MSrcMatcher MEncInner MEncode MLevels SpecApi PBase PEncInner PTotal PTotal2 TEncode TMatch.
Ltac Zify.zify_post_hook ::= idtac.
Arguments Z.add : simpl never.
Arguments Z.sub : simpl never.
Arguments Z.mul : simpl never.
Arguments Z.pow : simpl never.

(** The naive start test (Append, AppendPrepend, PrependAppend) does not fire together with target matching: one of them is
    off, or the source is empty, or the target is not the source followed by something. *)
Definition no_start_match (c : config) (src trgt : list Z) : Prop :=
  cf_trgt c = None \/ cf_naive c = None \/ cf_naive c = Some NPrepend \/ src = [] \/ ~ exists t, t <> [] /\ trgt = src ++ t.
(** What source matching needs, when on. *)
Definition safe_src (m : mode) (c : config) (src trgt : list Z) : Prop := forall sc, cf_src c = Some sc ->
  legal_src m sc /\ (m = Debug -> zlen src * zlen trgt < 2 ^ 64) /\ no_late_match src trgt (lazy_of c).

Lemma starts_with_split a p : starts_with a p = true -> exists t, a = p ++ t.
Proof.
  unfold starts_with. intro H. apply list_eqb_eq in H. exists (drop (zlen p) a). rewrite <- H at 1. symmetry. apply take_drop.
Qed.
Lemma naive_cur t src trgt : t = None \/ t = Some NPrepend \/ src = [] \/ ~ (exists t', t' <> [] /\ trgt = src ++ t') -> snd (fst (naive_tests t src trgt)) = 0.
Proof.
  intro H. unfold naive_tests. destruct (zlen trgt >? zlen src) eqn:El; [|reflexivity]. destruct t as [t|]; [|reflexivity].
  assert (He : forall r, naive_end src trgt = Some r -> snd (fst r) = 0) by (intros r; unfold naive_end; destruct (ends_with _ _); intros [= <-]; reflexivity).
  assert (Hs : t = NPrepend \/ forall r, naive_start src trgt = Some r -> snd (fst r) = 0).
  { destruct H as [H|[H|[H|H]]]; [discriminate H|left; congruence| |]; right; intros r; unfold naive_start; destruct (starts_with trgt src) eqn:Es; intros [= <-]; cbn [fst snd].
    - now rewrite H.
    - exfalso. apply starts_with_split in Es as (t' & ->). apply H. exists t'. split; [|reflexivity]. intros ->. rewrite zlen_app, (@zlen_nil Z) in El. lia. }
  assert (Hor : forall a b, (forall r, a = Some r -> snd (fst r) = 0) -> (forall r, b = Some r -> snd (fst r) = 0) ->
    snd (fst (match or_else a b with Some r => r | None => (@nil cand, 0, zlen trgt) end)) = 0).
  { intros a b Ha Hb. unfold or_else. destruct a as [r|]; [now apply Ha|]. destruct b as [r|]; [now apply Hb|reflexivity]. }
  destruct t; (destruct Hs as [Hs|Hs]; [try discriminate Hs; clear Hs|]).
  all: first [now apply Hor|destruct (naive_end src trgt) eqn:E; [now apply He|reflexivity]|destruct (naive_start src trgt) eqn:E; [now apply Hs|reflexivity]].
Qed.

(** C33. encode returns Ok for every source and target, format, compression, section size and lazy escape length. *)
Theorem C33_encode_total : forall m cd c dict trgt, Forall is_byte trgt -> zlen trgt < 2 ^ 62 -> zlen (source_of dict) < 2 ^ 63 ->
  (forall tc, cf_trgt c = Some tc -> legal_trgt tc) -> legal_comp (cf_comp c) ->
  no_start_match c (source_of dict) trgt -> safe_src m c (source_of dict) trgt ->
  exists patch, encode m cd c dict trgt = (patch, Ok tt).
Proof.
  intros m cd c dict trgt Hb Ht Hs Htc Hc Hn Hsrc. apply encode_total; auto. unfold inner_safe, inner_of. cbn [ic_trgt ic_src ic_naive ic_lazy]. split.
  - destruct (cf_trgt c) as [tc|] eqn:Et; [|exact I]. split; [now apply Htc|]. apply naive_cur. destruct Hn as [Hn|Hn]; [congruence|exact Hn].
  - destruct (cf_src c) as [sc|] eqn:Es; [|exact I]. exact (Hsrc sc Es).
Qed.

(** Two ways to meet [safe_src]: no source matching, or a target no longer than the lazy escape length plus 4. *)
Lemma short_no_late src trgt lazy : zlen trgt < Z.max 4 lazy + 5 -> no_late_match src trgt lazy.
Proof. intros H c (Hp & Hl & He & _) _ Hc _. unfold c_end in *. lia. Qed.
Theorem C33_encode_total_no_src : forall m cd c dict trgt, Forall is_byte trgt -> zlen trgt < 2 ^ 62 -> zlen (source_of dict) < 2 ^ 63 ->
  (forall tc, cf_trgt c = Some tc -> legal_trgt tc) -> legal_comp (cf_comp c) -> no_start_match c (source_of dict) trgt -> cf_src c = None ->
  exists patch, encode m cd c dict trgt = (patch, Ok tt).
Proof. intros. apply C33_encode_total; auto. intros sc E. congruence. Qed.
Theorem C33_encode_total_short : forall m cd c dict trgt, Forall is_byte trgt -> zlen trgt <= lazy_of c + 4 -> zlen trgt < 2 ^ 62 -> zlen (source_of dict) < 2 ^ 63 ->
  (forall tc, cf_trgt c = Some tc -> legal_trgt tc) -> legal_comp (cf_comp c) -> no_start_match c (source_of dict) trgt ->
  (forall sc, cf_src c = Some sc -> legal_src m sc /\ (m = Debug -> zlen (source_of dict) * zlen trgt < 2 ^ 64)) ->
  exists patch, encode m cd c dict trgt = (patch, Ok tt).
Proof. intros. apply C33_encode_total; auto. intros sc E. destruct (H6 sc E). split; [assumption|]. split; [assumption|]. apply short_no_late. lia. Qed.

(** With C31: encoding and applying round-trips, unconditionally. *)
Theorem C33_total_roundtrip : forall m m' cd c dict trgt, comp_lossless cd (cf_comp c) trgt -> Forall is_byte trgt -> zlen trgt < 2 ^ 62 -> zlen (source_of dict) < 2 ^ 63 ->
  (forall tc, cf_trgt c = Some tc -> legal_trgt tc) -> legal_comp (cf_comp c) ->
  no_start_match c (source_of dict) trgt -> safe_src m c (source_of dict) trgt ->
  exists patch, encode m cd c dict trgt = (patch, Ok tt) /\ forall rest, exists p,
    apply_patch m' cd (patch ++ rest) dict (mkSink [] 0) = (mkSink trgt p, Ok tt).
Proof.
  intros m m' cd c dict trgt Hcl Hb Ht Hs Htc Hc Hn Hsrc. destruct (C33_encode_total m cd c dict trgt Hb Ht Hs Htc Hc Hn Hsrc) as (patch & E).
  exists patch. split; [exact E|]. intro rest.
  destruct (C31_encode_apply_roundtrip m m' cd c dict trgt patch Hcl Hb ltac:(lia) Hs E rest [] 0) as (p & Ep).
  exists p. rewrite Ep. unfold drop. now rewrite skipn_nil, app_nil_r.
Qed.

(** The configurations of comp_level: nothing else is needed than no late match of 90 bytes. *)
Theorem C33_levels_total : forall m cd level mt sc dict trgt, 0 <= level <= 9 -> legal_comp sc ->
  Forall is_byte trgt -> zlen trgt < 2 ^ 62 -> zlen (source_of dict) < 2 ^ 63 -> (m = Debug -> zlen (source_of dict) * zlen trgt < 2 ^ 64) ->
  no_late_match (source_of dict) trgt 90 -> exists c patch, config_level m level mt sc = Ok c /\ encode m cd c dict trgt = (patch, Ok tt).
Proof.
  intros m cd level mt sc dict trgt [H0 H9] Hc Hb Ht Hs Hd Hn. destruct (C44_public_levels m level mt sc H0) as [Hl _].
  destruct (Hl H9) as (step & early & chain & _ & _ & Hch & E). eexists.
  match goal with |- exists patch, _ = Ok ?c /\ _ => destruct (C33_encode_total m cd (mkConfig (Some (mkSC step None)) (if mt then Some (mkTC early chain None) else None) sc
       (match sc with Some _ => Segregated | None => Interleaved end) max_win_size None None) dict trgt) as (patch & Ep); auto end.
  - cbn [cf_trgt]. intros tc. destruct mt; [|discriminate]. intros [= <-]. split; [cbn; lia|exact I].
  - right; now left.
  - cbn [cf_src]. intros s [= <-]. split; [exact I|]. split; [exact Hd|exact Hn].
  - exists patch. split; [exact E|exact Ep].
Qed.

(** ** A case meeting the hypotheses: 100 different bytes, then 4 more; the match of the source ends 4 bytes before the end. *)
Definition tot_src : list Z := map Z.of_nat (seq 0 100).
Definition tot_trgt : list Z := tot_src ++ [200; 201; 202; 203].
Lemma tot_idx_src i : 0 <= i < 100 -> idx tot_src i = Ok i.
Proof.
  intro H. unfold idx. replace (i <? 0) with false by lia. unfold tot_src. rewrite nth_error_map, nth_error_nth' with (d := 0%nat) by (rewrite seq_length; lia).
  rewrite seq_nth by lia. cbn [option_map]. f_equal. lia.
Qed.
Lemma tot_idx_trgt i : 0 <= i < 100 -> idx tot_trgt i = Ok i.
Proof.
  intro H. rewrite <- (tot_idx_src i H). unfold idx, tot_trgt. replace (i <? 0) with false by lia. rewrite nth_error_app1; [reflexivity|]. unfold tot_src. rewrite map_length, seq_length. lia.
Qed.
Example C33_example_no_late : no_late_match tot_src tot_trgt 90.
Proof.
  intros c (Hp & Hl & He & Hc) Hr H4 H9 Hend. change (zlen tot_trgt) with 104 in *. unfold c_end in *. destruct c as [s n p|s n p|b n p]; cbn [c_pos c_len] in *.
  - destruct Hc as (Hs & Hs2 & Heq). change (zlen tot_src) with 100 in *.
    assert (E : idx (sub tot_trgt p n) 0 = idx (sub tot_src s n) 0) by now rewrite Heq.
    rewrite !idx_sub in E by (try lia; change (zlen tot_trgt) with 104; change (zlen tot_src) with 100; lia).
    rewrite tot_idx_trgt, tot_idx_src in E by lia. injection E as E. assert (s = p) as -> by lia.
    unfold right_maximal, c_end in Hr. cbn [c_pos c_len] in Hr. change (zlen tot_trgt) with 104 in Hr. change (zlen tot_src) with 100 in Hr.
    destruct Hr as [Hr|[Hr|Hr]]; [lia|lia|]. apply Hr. rewrite tot_idx_trgt, tot_idx_src by lia. reflexivity.
  - destruct Hc as (Hs & Hs2 & _). lia.
  - destruct Hc as (_ & Heq).
    assert (E : forall i, 0 <= i < n -> Ok (p + i) = idx (rep b n) i).
    { intros i Hi. rewrite <- Heq, idx_sub by (try lia; change (zlen tot_trgt) with 104; lia). rewrite tot_idx_trgt by lia. reflexivity. }
    assert (F : forall i, 0 <= i < n -> p + i = b).
    { intros i Hi. specialize (E i Hi). unfold idx in E. replace (i <? 0) with false in E by lia. unfold rep in E. rewrite nth_error_repeat in E by lia. now injection E. }
    pose proof (F 0). pose proof (F 1). lia.
Qed.
Example C33_example : forall m, exists c patch, config_level m 9 true (Some (SmdiffComp (mkTC 20 8 (Some 16)))) = Ok c /\
  encode m toy c (Some tot_src) tot_trgt = (patch, Ok tt).
Proof.
  intro m. apply C33_levels_total; try lia; try (vm_compute; reflexivity).
  - cbn. unfold legal_trgt. cbn. split; [lia|]. right. exists 4. split; [lia|reflexivity].
  - apply PSection.byteb_ok. vm_compute. reflexivity.
  - exact C33_example_no_late.
Qed.
(** The hypotheses are needed: the same target with 6 further bytes has a late match, and encode panics on it (C32). *)
Example C33_late : forall m cd, ~ no_late_match tot_src (tot_src ++ map Z.of_nat (seq 200 6)) 90 /\
  encode m cd (mkConfig (Some (mkSC 18 None)) None None Interleaved 16777215 None None) (Some tot_src) (tot_src ++ map Z.of_nat (seq 200 6)) = ([], Panic).
Proof.
  intros m cd. split.
  - intro H. apply (H (MSrc 0 100 0)).
    + unfold cand_sound. repeat split; vm_compute; congruence.
    + right. left. reflexivity.
    + vm_compute. congruence.
    + vm_compute. reflexivity.
    + vm_compute. split; congruence.
  - destruct m; vm_compute; reflexivity.
Qed.

Print Assumptions C33_encode_total.
Print Assumptions C33_encode_total_no_src.
Print Assumptions C33_encode_total_short.
Print Assumptions C33_total_roundtrip.
Print Assumptions C33_levels_total.
