(** Properties C18, C19, C22-C28: applying patches. The patches are those the API writes ([written], SpecApi.v) in
    plain (uncompressed) sections, or arbitrary bytes; compressed sections are in TEncode.v. *)
From Verif Require Import Base Spec MCommon MWriter MReader MDecoder SpecApi PBase PCommon PStream PSection PWriter PDecoder PPatch TSection.

(** The operations of a patch. *)
Definition patch_ops (secs : list (list op * header)) : list op := concat (map fst secs).
Definition empty_sink : sink := mkSink [] 0.

(** C18. Truncation: reading or applying a proper prefix of a written patch is an end-of-file error, whatever the
    dictionary and the sink. *)
Theorem C18_truncation_detected : forall m cd secs bs c1 c2, written m secs bs -> Forall (section_in m) secs ->
  Forall (fun s => plain (snd s)) secs -> bs = c1 ++ c2 -> c2 <> [] ->
  (forall d s, snd (apply_patch m cd c1 (Some d) s) = Err EOF) /\
  calls m (length secs) (iter_new c1) = Err EOF.
Proof.
  intros m cd secs bs c1 c2 Hw Hin Hp E Hne.
  destruct (written_stream m cd secs bs Hw Hin Hp) as [Hs _]. split.
  - intros d s. exact (apply_patch_trunc m cd _ bs c1 c2 d s Hs E Hne).
  - assert (Hs' : stream_of true (read_section m) (map fst secs) bs).
    { clear - Hw Hin Hp. induction Hw as [ops h hb ob Hm Hwh Hwo|ops h hb ob secs bs Hm Hwh Hwo Hw IH];
      apply Forall_cons_iff in Hin as [Hi Hin]; apply Forall_cons_iff in Hp as [Hp0 Hp]; cbn [snd] in Hp0;
      destruct (plain_section m (mkCodecs (fun _ x => x) (fun x => Ok x) (fun x => Ok (x, [])) (fun _ x => x) (fun x => Ok (x, []))) ops h hb ob Hi Hp0 Hwh Hwo) as [_ Hs]; rewrite Hm in Hs.
      - constructor. exact Hs.
      - cbn [map fst]. rewrite app_assoc. constructor; [exact Hs|]. apply IH; assumption. }
    clear - Hs' E Hne. rewrite <- (map_length fst secs). generalize dependent c1.
    induction Hs' as [ops b (Hb & Hn & Htr)|ops b l bs (Hb & Hn & Htr) Hs IH]; intros c1 E; cbn [length calls];
      unfold iter_next, iter_new; cbn [it_done it_source].
    + rewrite (Htr eq_refl c1 c2 E Hne). reflexivity.
    + apply app_prefix_cases in E as [(x & Eb & -> & Hx)|(y & -> & ->)].
      * rewrite (Htr eq_refl c1 x Eb Hx). reflexivity.
      * destruct (Hn y) as (h & Ey & Hm). rewrite Ey. cbn [bind]. rewrite Hm. cbn [negb].
        specialize (IH y eq_refl). unfold iter_new in IH. rewrite IH. reflexivity.
Qed.

(** C19. Bytes after the last section are ignored: the whole result (sink and outcome) is the same, with or without a
    dictionary, also when application fails or panics. *)
Theorem C19_trailing_bytes_ignored : forall m cd secs bs t dict s, written m secs bs -> Forall (section_in m) secs ->
  Forall (fun s => plain (snd s)) secs -> apply_patch m cd (bs ++ t) dict s = apply_patch m cd bs dict s.
Proof.
  intros m cd secs bs t dict s Hw Hin Hp. destruct (written_stream m cd secs bs Hw Hin Hp) as [Hs _].
  exact (apply_patch_suffix _ m cd _ bs t dict s Hs).
Qed.

(** C22. Unspecified compression algorithms (4..7) are not rejected: a section so marked is applied as if it were
    uncompressed. "Unknown secondary compression is rejected" is refuted. *)
Theorem C22_unknown_compression_read_as_plain : forall m cd ops h hb ob rest, section_in m (ops, h) -> 4 <= h_comp h <= 7 ->
  write_section_header m h = (hb, Ok tt) -> write_ops m ops h = (ob, Ok tt) ->
  exists h', next_section m cd (hb ++ ob ++ rest) = Ok (ops, h', rest) /\ h_comp h' = h_comp h.
Proof.
  intros m cd ops h hb ob rest Hin Hc Hh Ho.
  destruct (section_written m ops h hb ob Hin Hh Ho) as (_ & Hrh & _ & _ & _ & Hrs).
  destruct (Hrs rest) as (h' & E & (Hb & _)). exists h'. split; [|exact Hb].
  destruct (next_section_plain m cd _ _ _ (Hrh (ob ++ rest))) as [-> E2]; [right; exact Hc|]. congruence.
Qed.
Theorem C22_refuted : forall m cd dict, apply_patch m cd [40; 1; 2; 130; 5; 6] dict empty_sink = (mkSink [5; 6] 2, Ok tt).
Proof. intros [] cd dict; reflexivity. Qed.

(** C23. Meaning: on an empty sink, applying a written patch succeeds exactly when performing its operations one after
    the other does, and then the sink holds exactly the bytes so produced. *)
Theorem C23_apply_is_meaning : forall m cd secs bs dict, written m secs bs -> Forall (section_in m) secs ->
  Forall (fun s => plain (snd s)) secs ->
  match run_ops dict [] (patch_ops secs) with
  | Some out => exists p, apply_patch m cd bs (Some dict) empty_sink = (mkSink out p, Ok tt)
  | None => snd (apply_patch m cd bs (Some dict) empty_sink) = Err EOF
  end.
Proof.
  intros m cd secs bs dict Hw Hin Hp. destruct (written_stream m cd secs bs Hw Hin Hp) as [Hs Hok].
  destruct (apply_patch_stream _ m cd _ bs [] dict [] 0 Hs (ops_ok_nonneg _ Hok)) as (p & E).
  rewrite app_nil_r in E. unfold empty_sink, patch_ops. rewrite E, perform_run.
  destruct (run_ops dict [] (concat (map fst secs))) as [out|]; [|reflexivity].
  exists p. now rewrite over_nil.
Qed.
Definition ex_small : list op := [Add [1; 2; 3]; Copy Dict 1 2; Run 7 4; Copy Output 1 5].
Definition ex_small_patch : list Z := [128; 2; 5; 131; 1; 2; 3; 2; 2] ++ [0; 2; 9; 196; 7; 69; 2].
Example C23_example : forall m, written m [([Add [1; 2; 3]; Copy Dict 1 2], mkHeader 0 Interleaved true 2 3 5);
    ([Run 7 4; Copy Output 1 5], mkHeader 0 Interleaved false 2 0 9)] ex_small_patch /\
  run_ops [50; 51; 52] [] ex_small = Some [1; 2; 3; 51; 52; 7; 7; 7; 7; 2; 3; 51; 52; 7] /\
  (forall cd, sbuf (fst (apply_patch m cd ex_small_patch (Some [50; 51; 52]) empty_sink)) = [1; 2; 3; 51; 52; 7; 7; 7; 7; 2; 3; 51; 52; 7]).
Proof.
  intro m. split; [|split; [reflexivity|intro cd; destruct m; reflexivity]].
  apply (written_more m _ _ [128; 2; 5] [131; 1; 2; 3; 2; 2]); [reflexivity|destruct m; reflexivity|destruct m; reflexivity|].
  apply (written_last m _ _ [0; 2; 9] [196; 7; 69; 2]); [reflexivity|destruct m; reflexivity|destruct m; reflexivity].
Qed.

(** C25. Out-of-range copies are end-of-file errors; the sink then holds the output of the operations before. *)
Theorem C25_out_of_range_copy_is_error : forall m cd secs bs dict pre bad post out, written m secs bs ->
  Forall (section_in m) secs -> Forall (fun s => plain (snd s)) secs -> patch_ops secs = pre ++ bad :: post ->
  run_ops dict [] pre = Some out ->
  (exists a n, 0 < n /\ ((bad = Copy Dict a n /\ zlen dict < a + n) \/ (bad = Copy Output a n /\ zlen out < a + n))) ->
  exists p, apply_patch m cd bs (Some dict) empty_sink = (mkSink out p, Err EOF).
Proof.
  intros m cd secs bs dict pre bad post out Hw Hin Hp Eo Hpre (a & n & Hn & Hbad).
  destruct (written_stream m cd secs bs Hw Hin Hp) as [Hs Hok].
  destruct (apply_patch_stream _ m cd _ bs [] dict [] 0 Hs (ops_ok_nonneg _ Hok)) as (p & E).
  rewrite app_nil_r in E. unfold empty_sink. rewrite E. unfold patch_ops in Eo.
  assert (Ef : perform dict [] [] (concat (map fst secs)) = (out, false)).
  { apply perform_false. exists pre, bad, post. split; [exact Eo|]. split; [exact Hpre|].
    destruct Hbad as [[-> H]|[-> H]]; cbn [op_bytes]; unfold in_range;
      replace (n =? 0) with false by lia; cbn [orb].
    - replace (a + n <=? zlen dict) with false by lia. now rewrite andb_false_r.
    - replace (a + n <=? zlen out) with false by lia. now rewrite andb_false_r. }
  rewrite Ef. exists p. now rewrite over_nil.
Qed.
Example C25_example : forall m cd, apply_patch m cd [0; 3; 6; 129; 9; 68; 0; 193; 1] (Some []) empty_sink = (mkSink [9] 1, Err EOF) /\
  patch_ops [([Add [9]; Copy Output 0 4; Run 1 1], mkHeader 0 Interleaved false 3 0 6)] = [Add [9]; Copy Output 0 4; Run 1 1].
Proof. intros [] cd; split; reflexivity. Qed.

(** C26. Whatever bytes are applied (corrupt, truncated or valid, also with compressed sections), when application fails
    the sink holds exactly what a prefix of the patch's operations produces: either whole sections were applied and the
    next section could not be read, or the operations before one failing copy were applied. *)
Theorem C26_failed_apply_leaves_prefix : forall m cd bytes dict s e, codecs_bytes cd -> Forall is_byte bytes ->
  apply_patch m cd bytes (Some dict) empty_sink = (s, Err e) ->
  exists secs rest, sections_read (next_section m cd) bytes secs rest /\
  ((next_section m cd rest = Err e /\ run_ops dict [] (concat secs) = Some (sbuf s)) \/
   (e = EOF /\ exists ops h t done bad post, next_section m cd rest = Ok (ops, h, t) /\ ops = done ++ bad :: post /\
      run_ops dict [] (concat secs ++ done) = Some (sbuf s) /\ op_bytes dict (sbuf s) bad = None)).
Proof.
  intros m cd bytes dict s e Hcd Hb H. unfold apply_patch in H.
  destruct (apply_loop (next_section m cd) (S (length bytes)) (Some dict) bytes empty_sink 0) as [s' r] eqn:E.
  change 0 with (zlen (@nil Z)) in E. unfold empty_sink in E.
  destruct (apply_loop_outcome _ (next_section_typed m cd Hcd) _ _ _ _ _ _ _ Hb E) as (secs & rest & Hsr & Hres).
  exists secs, rest. split; [exact Hsr|].
  destruct r as [t|e'| |]; cbn [bind] in H; try discriminate; injection H as <- <-.
  destruct Hres as [Hres|(He & ops & h & t & dn & bad & post & G)].
  - left. exact Hres.
  - right. injection He as ->. split; [reflexivity|]. exists ops, h, t, dn, bad, post. exact G.
Qed.
Example C26_example : forall m cd, codecs_bytes (mkCodecs (fun _ x => x) (fun x => Ok x) (fun _ => Err EOF) (fun _ x => x) (fun _ => Err EOF)) /\
  apply_patch m cd [128; 1; 2; 130; 5; 6; 0; 9] (Some []) empty_sink = (mkSink [5; 6] 2, Err EOF).
Proof. intros [] cd; (split; [split; intros; discriminate|reflexivity]). Qed.

(** C27. Prior sink contents: application writes from position 0 and keeps what lies beyond the new output; if every copy
    stays within dictionary and produced output (the patch applies to an empty sink) the new bytes do not depend on the
    old ones. Without the proviso they can: refuted below. *)
Theorem C27_prior_sink_contents : forall m cd secs bs dict old p out, written m secs bs -> Forall (section_in m) secs ->
  Forall (fun s => plain (snd s)) secs -> run_ops dict [] (patch_ops secs) = Some out ->
  exists p', apply_patch m cd bs (Some dict) (mkSink old p) = (mkSink (out ++ drop (zlen out) old) p', Ok tt).
Proof.
  intros m cd secs bs dict old p out Hw Hin Hp Hr. destruct (written_stream m cd secs bs Hw Hin Hp) as [Hs Hok].
  destruct (apply_patch_stream _ m cd _ bs [] dict old p Hs (ops_ok_nonneg _ Hok)) as (p' & E).
  rewrite app_nil_r in E. rewrite E. rewrite (perform_old dict old _ [] out (ops_ok_nonneg _ Hok) Hr). now exists p'.
Qed.
Example C27_example : forall m cd, sbuf (fst (apply_patch m cd ex_small_patch (Some [50; 51; 52]) (mkSink (rep 99 16) 5)))
  = [1; 2; 3; 51; 52; 7; 7; 7; 7; 2; 3; 51; 52; 7; 99; 99].
Proof. intros [] cd; reflexivity. Qed.
Theorem C27_refuted_stale_bytes : forall m cd,
  snd (apply_patch m cd [0; 1; 1; 65; 0] (Some []) empty_sink) = Err EOF /\
  apply_patch m cd [0; 1; 1; 65; 0] (Some []) (mkSink [42] 0) = (mkSink [42] 1, Ok tt).
Proof. intros [] cd; split; reflexivity. Qed.

(** C28. Missing dictionary: a patch without dictionary copies behaves as with any dictionary; otherwise, if the
    operations before the first dictionary copy succeed, application PANICS there (instead of returning an error). *)
Theorem C28_missing_dictionary : forall m cd secs bs, written m secs bs -> Forall (section_in m) secs ->
  Forall (fun s => plain (snd s)) secs ->
  (existsb is_dict_copy (patch_ops secs) = false ->
     forall dict s, apply_patch m cd bs None s = apply_patch m cd bs (Some dict) s) /\
  (forall pre x post out, patch_ops secs = pre ++ x :: post -> is_dict_copy x = true -> existsb is_dict_copy pre = false ->
     run_ops [] [] pre = Some out ->
     exists p, apply_patch m cd bs None empty_sink = (mkSink out p, Panic)).
Proof.
  intros m cd secs bs Hw Hin Hp. destruct (written_stream m cd secs bs Hw Hin Hp) as [Hs Hok].
  assert (G : forall l, existsb is_dict_copy l = false -> forallb (fun o => negb (is_dict_copy o)) l = true).
  { intros l H. apply forallb_forall. intros x Hx. destruct (is_dict_copy x) eqn:E; [|reflexivity].
    assert (existsb is_dict_copy l = true) by (apply existsb_exists; eauto). congruence. }
  split.
  - intros Hn dict s. pose proof (apply_patch_no_dict _ m cd dict _ bs [] s Hs (G _ Hn)) as E. now rewrite app_nil_r in E.
  - intros pre x post out Eo Hx Hpre Hr.
    destruct (apply_patch_dict_panic _ m cd _ bs [] [] 0 pre x post Hs (ops_ok_nonneg _ Hok) Eo (G _ Hpre) Hx) as (p & E).
    rewrite app_nil_r in E. unfold empty_sink. rewrite E. apply perform_true in Hr. rewrite Hr. exists p. now rewrite over_nil.
Qed.
Theorem C28_refuted : forall m cd, apply_patch m cd ex_small_patch None empty_sink = (mkSink [1; 2; 3] 3, Panic).
Proof. intros [] cd; reflexivity. Qed.

Print Assumptions C18_truncation_detected.
Print Assumptions C19_trailing_bytes_ignored.
Print Assumptions C22_unknown_compression_read_as_plain.
Print Assumptions C22_refuted.
Print Assumptions C23_apply_is_meaning.
Print Assumptions C25_out_of_range_copy_is_error.
Print Assumptions C26_failed_apply_leaves_prefix.
Print Assumptions C27_prior_sink_contents.
Print Assumptions C27_refuted_stale_bytes.
Print Assumptions C28_missing_dictionary.
Print Assumptions C28_refuted.
