(** Properties C32, C40-C43: behaviour of encode a user would not expect (panics, an endless loop, missed repeats), each
    with the exact class of inputs or a witness. *)
From Verif Require Import Base Spec SpecEnc MCommon MWriter MReader MDecoder MHasher MHashmap MOpMaker MTrgtMatcher MSrcMatcher MEncInner MEncode MLevels
  SpecApi PBase PHashmap TEncode.
Ltac Zify.zify_post_hook ::= idtac.
Arguments Z.add : simpl never.
Arguments Z.sub : simpl never.
Arguments Z.mul : simpl never.
Arguments Z.pow : simpl never.

Lemma encode_panic m cd c dict trgt : encode_inner m (inner_of c) (source_of dict) trgt = Panic ->
  encode m cd c dict trgt = ([], Panic).
Proof.
  intro H. unfold encode, encode_with. cbv zeta. unfold source_of in H. rewrite H. reflexivity.
Qed.

(** C32. Encoding can panic with the default configuration: a match of at least 90 bytes ending 6 bytes before the end of
    the target. *)
Theorem C32_refuted_default_config_panics : forall m cd, exists c src trgt, config_default m = Ok c /\
  Forall is_byte src /\ Forall is_byte trgt /\ encode m cd c (Some src) trgt = ([], Panic).
Proof.
  intros m cd. exists (mkConfig (Some (mkSC 18 None)) None None Interleaved 16777215 None None).
  exists (map Z.of_nat (seq 0 100)), (map Z.of_nat (seq 0 100) ++ map Z.of_nat (seq 200 6)).
  split; [destruct m; vm_compute; reflexivity|].
  split; [apply PSection.byteb_ok; vm_compute; reflexivity|]. split; [apply PSection.byteb_ok; vm_compute; reflexivity|].
  apply encode_panic. destruct m; vm_compute; reflexivity.
Qed.

(** C40. With a start-matching naive test the chain of previous positions can contain a loop: encoding never returns. *)
Theorem C40_refuted_endless_loop : forall m cd, exists tc, trgt_level m 3 = Ok tc /\
  encode m cd (mkConfig None (Some tc) None Interleaved 16777215 (Some NAppend) None) (Some [0]) [0; 0; 0; 1; 0; 0; 0] = ([], Diverge).
Proof. intros m cd. exists (mkTC 27 11 None). split; [destruct m; vm_compute; reflexivity|]. destruct m; vm_compute; reflexivity. Qed.

(** C42. A 20-byte block repeated at once is not found by target matching: the whole target is one literal. *)
Theorem C42_refuted_repeat_not_found : forall m cd, exists tc, trgt_level m 9 = Ok tc /\
  let block := map Z.of_nat (seq 0 20) in
  encode m cd (mkConfig None (Some tc) None Interleaved 16777215 None None) None (block ++ block) =
  ([0; 1; 40; 168] ++ block ++ block, Ok tt).
Proof. intros m cd. exists (mkTC 70 33 None). split; [destruct m; vm_compute; reflexivity|]. destruct m; vm_compute; reflexivity. Qed.

(** C43. Every capacity of the chain table other than 0 and the powers of two panics, for every non-empty target and
    every other setting. *)
Lemma naive_cur t src trgt : 0 <= snd (fst (naive_tests t src trgt)) <= zlen trgt.
Proof.
  pose proof (zlen_nonneg trgt). pose proof (zlen_nonneg src). unfold naive_tests. destruct (zlen trgt >? zlen src) eqn:E; [|cbn; lia].
  unfold naive_start, naive_end, or_else. destruct t as [[]|]; try (destruct (starts_with trgt src)); try (destruct (ends_with trgt src)); cbn; lia.
Qed.
Theorem C43_illegal_capacity_panics : forall m cd c tc n dict trgt, cf_trgt c = Some tc -> tc_capacity tc = Some n ->
  0 < n -> Z.land n (n - 1) <> 0 -> trgt <> [] -> zlen trgt < 2 ^ 62 -> encode m cd c dict trgt = ([], Panic).
Proof.
  intros m cd c tc n dict trgt Ht Hn Hn0 Hl Hne Hlen. apply encode_panic. unfold encode_inner, inner_of. cbn [ic_src ic_trgt ic_naive].
  rewrite Ht. assert (Hz : 0 < zlen trgt) by (destruct trgt; [contradiction|rewrite zlen_cons; pose proof (zlen_nonneg trgt); lia]).
  pose proof (naive_cur (cf_naive c) (source_of dict) trgt) as Hcur.
  assert (B : forall cur, 0 <= cur <= zlen trgt -> trgt_build m tc trgt cur = Panic).
  { intros cur Hc. unfold trgt_build. rewrite usub_ok by lia. cbn [bind]. rewrite Hn. cbn [bind].
    set (eff := zlen trgt - cur). assert (He : 0 <= eff / 2 <= eff) by (split; [apply Z.div_pos; lia|apply Z.div_le_upper_bound; lia]).
    destruct (next_pow2_ok m (eff + eff / 2) ltac:(lia)) as (k & -> & _). cbn [bind].
    destruct (table_new_ok m (Z.min DEFAULT_TRGT_WIN_SIZE (Z.shiftr (2 ^ k) 1)) true) as (tb & -> & _).
    { assert (0 <= Z.shiftr (2 ^ k) 1) by (apply Z.shiftr_nonneg; apply Z.pow_nonneg; lia). unfold DEFAULT_TRGT_WIN_SIZE. lia. }
    cbn [bind]. unfold chain_new. replace (n =? 0) with false by lia. replace (Z.land n (n - 1) =? 0) with false by lia. reflexivity. }
  destruct (cf_src c); cbv beta iota zeta; rewrite andb_false_r; replace (zlen trgt =? 0) with false by lia;
    destruct (naive_tests (cf_naive c) (source_of dict) trgt) as [[ops cur] mx]; cbn [fst snd] in Hcur; rewrite (B cur Hcur); reflexivity.
Qed.
Example C43_example : Z.land 1000 (1000 - 1) <> 0 /\ Z.land 1024 (1024 - 1) = 0.
Proof. split; [vm_compute; discriminate|reflexivity]. Qed.

Lemma trgt_store_cases t h p : (exists t', trgt_store t h p = Ok t') \/ trgt_store t h p = Panic.
Proof.
  unfold trgt_store, table_insert. destruct (_ && _); [|now right]. destruct (bucket_set _ _ _) as [b r]. cbn [bind].
  destruct r; cbn [bind]; [left; eexists; reflexivity| |]; unfold chain_insert; (destruct (ch_cap (tm_chain t) =? 0); [left; eexists; reflexivity|]);
    (destruct (_ && _); [left; eexists; reflexivity|now right]).
Qed.
Lemma idx_cases (l : list Z) i : (exists x, idx l i = Ok x /\ i < zlen l) \/ idx l i = Panic.
Proof. destruct (idx l i) eqn:E; [left; apply idx_inv in E as [? _]; eexists; split; [reflexivity|lia]| | |]; unfold idx in E; destruct (i <? 0); try (now right); destruct (nth_error l (Z.to_nat i)); discriminate || now right. Qed.
(** The prefill loop up to position [e] panics when fewer than 4 bytes follow. *)
Lemma prefill_past_end l e : zlen l < e + 4 -> forall n t hash pos, pos + Z.of_nat n = e -> (0 < n)%nat -> trgt_prefill n t l hash pos = Panic.
Proof.
  intros Hl. induction n as [|n IH]; intros t hash pos He Hn; [lia|]. cbn [trgt_prefill].
  destruct (idx_cases l pos) as [(a & -> & _) | ->]; [|reflexivity]. cbn [bind].
  destruct (idx_cases l (pos + 4)) as [(b & -> & Hb) | ->]; [|reflexivity]. cbn [bind].
  destruct (trgt_store_cases t (update_small_checksum_fwd hash a b) (pos + 1)) as [(t' & ->) | ->]; [|reflexivity]. cbn [bind].
  destruct n as [|n]; [lia|]. apply IH; lia.
Qed.

(** C41. With the Append (or AppendPrepend) naive test and target matching, every target that is a non-empty source
    followed by 2 or 3 bytes panics (also 1 byte, when a chain capacity is given). *)
Theorem C41_append_short_tail_panics : forall m cd c tc src tail, cf_trgt c = Some tc ->
  (cf_naive c = Some NAppend \/ cf_naive c = Some NAppendPrepend) -> src <> [] ->
  (match tc_capacity tc with None => 2 <= zlen tail <= 3 | Some n => 0 < n /\ 1 <= zlen tail <= 3 end) ->
  Forall is_byte src -> Forall is_byte tail -> zlen (src ++ tail) < 2 ^ 62 ->
  encode m cd c (Some src) (src ++ tail) = ([], Panic).
Proof.
  intros m cd c tc src tail Ht Hnv Hne Hcap Hbs Hbt Hlen. apply encode_panic. cbn [source_of]. unfold encode_inner, inner_of. cbn [ic_src ic_trgt ic_naive].
  rewrite Ht. rewrite zlen_app in Hlen. assert (Hz : 0 < zlen src) by (destruct src; [contradiction|rewrite zlen_cons; pose proof (zlen_nonneg src); lia]).
  assert (Htl : 1 <= zlen tail <= 3) by (destruct (tc_capacity tc); lia).
  assert (Hn : exists ops, naive_tests (cf_naive c) src (src ++ tail) = (ops, zlen src, zlen (src ++ tail))).
  { unfold naive_tests. rewrite zlen_app. replace (zlen src + zlen tail >? zlen src) with true by lia.
    assert (S : starts_with (src ++ tail) src = true) by (unfold starts_with; rewrite take_app by reflexivity; now apply list_eqb_eq).
    destruct Hnv as [-> | ->]; unfold or_else, naive_start; rewrite S, zlen_app; eexists; reflexivity. }
  destruct Hn as (ops & Hn). rewrite Hn. replace (zlen (src ++ tail) =? 0) with false by (rewrite zlen_app; lia).
  assert (B : trgt_build m tc (src ++ tail) (zlen src) = Panic).
  { unfold trgt_build. rewrite zlen_app. rewrite usub_ok by lia. cbn [bind]. replace (zlen src + zlen tail - zlen src) with (zlen tail) by lia.
    assert (Hcap' : exists cap, match tc_capacity tc with Some n => Ok n | None => do p <- next_power_of_two m (zlen tail); Ok (Z.min DEFAULT_PREV_SIZE (Z.shiftr p 1)) end = Ok cap /\ 1 <= cap).
    { destruct (tc_capacity tc) as [n|]; [exists n; split; [reflexivity|lia]|].
      assert (C : zlen tail = 2 \/ zlen tail = 3) by lia. destruct C as [-> | ->]; eexists; (split; [vm_compute; reflexivity|lia]). }
    destruct Hcap' as (cap & -> & Hc1). cbn [bind].
    assert (He : 0 <= zlen tail / 2 <= zlen tail) by (split; [apply Z.div_pos; lia|apply Z.div_le_upper_bound; lia]).
    destruct (next_pow2_ok m (zlen tail + zlen tail / 2) ltac:(lia)) as (k & -> & _). cbn [bind].
    destruct (table_new_ok m (Z.min DEFAULT_TRGT_WIN_SIZE (Z.shiftr (2 ^ k) 1)) true) as (tb & -> & Htb & _).
    { assert (0 <= Z.shiftr (2 ^ k) 1) by (apply Z.shiftr_nonneg; apply Z.pow_nonneg; lia). unfold DEFAULT_TRGT_WIN_SIZE. lia. }
    cbn [bind]. unfold chain_new. replace (cap =? 0) with false by lia.
    destruct (Z.land cap (cap - 1) =? 0) eqn:Elg; [|reflexivity]. cbn [assert_ bind].
    replace (zlen src >? 0) with true by lia. rewrite slice_ok by (rewrite ?zlen_app; lia). cbn [bind].
    rewrite <- zlen_app.
    destruct (trgt_store_cases (mkTM (tc_early tc) (tc_chain_check tc) 0 (zlen src) (Z.max 0 (zlen (src ++ tail) - 4)) tb
       (mkChain cap (cap - 1) (fun _ => empty_bucket))) (calculate_small_checksum (sub (src ++ tail) (Z.max 0 (zlen src - cap)) (zlen (src ++ tail) - Z.max 0 (zlen src - cap)))) (Z.max 0 (zlen src - cap))) as [(t' & E) | E];
      rewrite E; [|reflexivity]. cbn [bind]. apply (prefill_past_end _ (zlen src)); rewrite ?zlen_app; lia. }
  destruct (cf_src c); cbv beta iota zeta; rewrite andb_false_r; rewrite B; reflexivity.
Qed.
Example C41_example : let tc := mkTC 70 33 None in
  encode Debug toy (mkConfig None (Some tc) None Interleaved 16777215 (Some NAppend) None) (Some [1]) [1; 2; 3] = ([], Panic) /\
  encode Release toy (mkConfig None (Some tc) None Interleaved 16777215 (Some NAppend) None) (Some [1]) [1; 2; 3] = ([], Panic).
Proof. split; vm_compute; reflexivity. Qed.

Print Assumptions C32_refuted_default_config_panics.
Print Assumptions C40_refuted_endless_loop.
Print Assumptions C41_append_short_tail_panics.
Print Assumptions C42_refuted_repeat_not_found.
Print Assumptions C43_illegal_capacity_panics.
