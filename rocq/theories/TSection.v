(** Properties C08-C17, C20, C21: sections, the writer's checks and the reader. *)
From Verif Require Import Base Spec MCommon MWriter MReader MDecoder SpecApi PBase PCommon PStream PSection PWriter PDecoder PPatch.

(** C08. Section header round trip, with exact consumption. *)
Theorem C08_header_roundtrip : forall m h rest, header_typed h -> (h_format h = Segregated -> h_nadd h <= h_osize h) ->
  exists bs h', write_section_header m h = (bs, Ok tt) /\ bs <> [] /\ read_section_header m (bs ++ rest) = Ok (h', rest) /\
    h_comp h' = h_comp h /\ h_format h' = h_format h /\ h_more h' = h_more h /\ h_nops h' = h_nops h /\
    h_osize h' = h_osize h /\ h_nadd h' = match h_format h with Segregated => h_nadd h | Interleaved => 0 end.
Proof.
  intros m h rest Ht Hle. destruct (header_roundtrip m h rest Ht Hle) as (bs & H1 & H2 & H3).
  exists bs, (read_back h). repeat (split; [assumption|]). unfold read_back, set_nadd. cbn. auto 10.
Qed.
Example C08_example : let h := mkHeader 3 Segregated true 700 5 90000 in
  header_typed h /\ read_section_header Debug (fst (write_section_header Debug h) ++ [1; 2]) = Ok (h, [1; 2]).
Proof. split; [unfold header_typed; cbn; lia|reflexivity]. Qed.

(** C09. Operation round trip: the operation byte with the size, followed in interleaved sections by the additional
    field, is read back as the operation, with exact consumption and the same updated last addresses. In segregated
    sections an Add is read as a placeholder of the same length. *)
Theorem C09_operation_roundtrip : forall m d o x, 0 <= d < 2 ^ 64 -> 0 <= o < 2 ^ 64 -> op_ok x ->
  m = Release \/ deltas_ok d o [x] ->
  exists hd tl, write_op_byte_and_size x = (hd, Ok tt) /\ write_op_addtl m x d o = (tl, Ok (next_d d x, next_o o x)) /\
    (forall rest, read_op m d o true (hd ++ tl ++ rest) = Ok (x, next_d d x, next_o o x, rest)) /\
    (forall rest, is_add x = false -> read_op m d o false (hd ++ tl ++ rest) = Ok (x, next_d d x, next_o o x, rest)) /\
    (forall rest, is_add x = true -> read_op m d o false (hd ++ rest) = Ok (Add (rep 0 (op_len x)), d, o, rest)).
Proof.
  intros m d o x Hd Ho Hx Hm.
  destruct (op_roundtrip m d o x Hd Ho Hx) as (hd & tl & H1 & H2 & H3 & H4 & H5).
  { destruct Hm as [Hm|[Hm _]]; [left; exact Hm|right; exact Hm]. }
  exists hd, tl. split; [exact H1|]. split; [exact H3|]. split; [intro; apply H4; auto|]. split; [intros; apply H4; auto|exact H5].
Qed.
Example C09_example : op_ok (Copy Output 5 300) /\ deltas_ok 9 1000 [Copy Output 5 300] /\
  fst (write_op_byte_and_size (Copy Output 5 300)) = [64; 44; 1] /\
  fst (write_op_addtl Debug (Copy Output 5 300) 9 1000) = [197; 15] /\
  read_op Debug 9 1000 true [64; 44; 1; 197; 15] = Ok (Copy Output 5 300, 9, 5, []).
Proof. split; [split; cbn; lia|]. split; [cbn; lia|]. repeat split. Qed.

(** C10. Section round trip: whatever section is written successfully (literals of at most 65535 bytes) is read back as
    exactly these operations, in order, leaving exactly what followed, in both formats. *)
Theorem C10_section_roundtrip : forall m ops h hb ob rest, section_in m (ops, h) ->
  write_section_header m h = (hb, Ok tt) -> write_ops m ops h = (ob, Ok tt) ->
  exists h', read_section m (hb ++ ob ++ rest) = Ok (ops, h', rest) /\ header_back h ops h'.
Proof.
  intros m ops h hb ob rest Hin Hh Ho. now destruct (section_written m ops h hb ob Hin Hh Ho) as (_ & _ & _ & _ & _ & Hrs).
Qed.
Definition ex_ops : list op :=
  [Add [1; 2; 3]; Copy Dict 100 63; Run 7 62; Copy Output 2 64; Add (rep 9 70); Copy Dict 3 1; Copy Output 0 (65535)].
Definition ex_header (f : format) (more : bool) : header := mkHeader 0 f more (zlen ex_ops) (adds_len ex_ops) (ops_len ex_ops).
Lemma ex_section_in m f more : section_in m (ex_ops, ex_header f more).
Proof.
  assert (E : Forall op_ok ex_ops) by (apply ops_okb_ok; reflexivity).
  split; [|split; [|split]]; cbn [fst snd].
  - revert E. apply Forall_impl. now intros a [H _].
  - repeat constructor; vm_compute; congruence.
  - unfold header_typed, ex_header; cbn [h_comp h_nops h_nadd h_osize].
    change (zlen ex_ops) with 7. change (adds_len ex_ops) with 73. change (ops_len ex_ops) with 65798. lia.
  - right. cbn. lia.
Qed.
Example C10_example : forall m f more, section_in m (ex_ops, ex_header f more) /\
  snd (write_section_header m (ex_header f more)) = Ok tt /\ snd (write_ops m ex_ops (ex_header f more)) = Ok tt.
Proof. intros m f more. split; [apply ex_section_in|]. destruct m, f, more; vm_compute; auto. Qed.

(** C11. Section iterator: over a written patch, followed by anything, [length secs + k] calls yield each written section
    in order (same operations, header as in C10) and then None, [k] times, for every [k]. *)
Theorem C11_iterator_yields_written_sections : forall m secs bs t k, written m secs bs -> Forall (section_in m) secs ->
  exists outs, calls m (length secs + k) (iter_new (bs ++ t)) = Ok (map Some outs ++ repeat None k) /\
    Forall2 (fun s x => fst x = fst s /\ header_back (snd s) (fst s) (snd x)) secs outs.
Proof. exact calls_written. Qed.
Lemma ex_written m : exists bs, written m [(ex_ops, ex_header Segregated true); (ex_ops, ex_header Interleaved false)] bs.
Proof.
  destruct (C10_example m Segregated true) as (_ & E1 & E2). destruct (C10_example m Interleaved false) as (_ & E3 & E4).
  destruct (write_section_header m (ex_header Segregated true)) as [b1 r1] eqn:W1.
  destruct (write_ops m ex_ops (ex_header Segregated true)) as [b2 r2] eqn:W2.
  destruct (write_section_header m (ex_header Interleaved false)) as [b3 r3] eqn:W3.
  destruct (write_ops m ex_ops (ex_header Interleaved false)) as [b4 r4] eqn:W4.
  cbn [snd] in *. subst. eexists. eapply written_more; eauto. eapply written_last; eauto.
Qed.
Lemma ex_sections_in m : Forall (section_in m) [(ex_ops, ex_header Segregated true); (ex_ops, ex_header Interleaved false)].
Proof. apply Forall_cons; [apply ex_section_in|]. apply Forall_cons; [apply ex_section_in|]. constructor. Qed.

(** C12. Writer validation is exact: with literals of at most 65535 bytes, write_ops returns Ok if and only if the header
    tells the truth and the format limits hold (and, with overflow checks, no copy address lies exactly 2^63 below the
    previous one of its kind). *)
Theorem C12_writer_validation_exact : forall m ops h, Forall op_typed ops -> Forall (fun o => add_len o <= 65535) ops ->
  (snd (write_ops m ops h) = Ok tt <->
   h_osize h <= max_win_size /\ h_osize h = ops_len ops /\ h_nops h = zlen ops /\
   (h_format h = Segregated -> h_nadd h = adds_len ops) /\
   Forall (fun o => match o with Run _ n => 1 <= n <= 62 | _ => True end) ops /\
   (m = Debug -> has_min_delta 0 0 ops = false)).
Proof.
  intros m ops h Ht Ha. rewrite (write_ops_cases m ops h Ht), (wires_len_short ops Ha).
  assert (Hrun : existsb bad_run ops = false <-> Forall (fun o => match o with Run _ n => 1 <= n <= 62 | _ => True end) ops).
  { clear Ha. induction Ht as [|x ops Hx Ht IH]; [cbn; split; [constructor|reflexivity]|].
    cbn [existsb]. rewrite orb_false_iff, Forall_cons_iff, IH. destruct x as [bs|b n|s a n]; cbn in *; intuition lia. }
  destruct (max_win_size <? h_osize h) eqn:E1; [split; [discriminate|lia]|].
  destruct (zlen ops =? h_nops h) eqn:E2; cbn [negb]; [|split; [discriminate|lia]].
  destruct (existsb bad_run ops) eqn:E3; cbn [orb].
  { split; [discriminate|]. intros (_ & _ & _ & _ & H & _). apply Hrun in H. discriminate. }
  assert (Hr : Forall (fun o => match o with Run _ n => 1 <= n <= 62 | _ => True end) ops) by now apply Hrun.
  destruct (is_debug m && has_min_delta 0 0 ops) eqn:E4.
  { split; [discriminate|]. intros (_ & _ & _ & _ & _ & H). destruct m; cbn in E4; [rewrite H in E4 by reflexivity|]; discriminate. }
  assert (Hd : m = Debug -> has_min_delta 0 0 ops = false) by (intros ->; exact E4).
  destruct (is_segregated (h_format h) && negb (adds_len ops =? h_nadd h)) eqn:E5.
  { split; [discriminate|]. intros (_ & _ & _ & H & _). destruct (h_format h); cbn in E5; [discriminate|]. specialize (H eq_refl). lia. }
  destruct (ops_len ops =? h_osize h) eqn:E6; cbn [negb]; [|split; [discriminate|lia]].
  split; [intros _|reflexivity]. repeat split; try lia; try assumption.
  intro Hs. rewrite Hs in E5. cbn in E5. lia.
Qed.
Example C12_example : snd (write_ops Debug ex_ops (ex_header Interleaved false)) = Ok tt /\
  snd (write_ops Debug ex_ops (mkHeader 0 Interleaved false 7 0 65801)) = Err InvalidData.
Proof. vm_compute. auto. Qed.

(** C13. What the writer accepts is readable when literals have at most 65535 bytes (C10); a longer literal is accepted
    too, but what was written can never be read back as the same operations: the claim "Ok implies readable" is refuted. *)
Theorem C13_long_add_accepted_but_unreadable : forall m bs f more, Forall is_byte bs -> 65535 < zlen bs < 2 ^ 32 ->
  zlen bs mod 65536 < 2 ^ 24 ->
  let h := mkHeader 0 f more 1 (zlen bs) (zlen bs mod 65536) in
  snd (write_ops m [Add bs] h) = Ok tt /\
  forall bytes h' rest, Forall is_byte bytes -> read_section m bytes <> Ok ([Add bs], h', rest).
Proof.
  intros m bs f more Hb Hlen _ h. split.
  - rewrite write_ops_cases by (repeat constructor; exact Hb). cbn [h_osize h h_nops h_format h_nadd].
    pose proof (Z.mod_pos_bound (zlen bs) 65536 ltac:(lia)) as Hmod. unfold max_win_size.
    replace (16777215 <? zlen bs mod 65536) with false by lia.
    cbn [existsb bad_run orb has_min_delta]. rewrite andb_false_r.
    replace (zlen [Add bs] =? 1) with true by reflexivity. cbn [negb].
    cbn [adds_len fold_right add_len wires_len wire_len]. rewrite !Z.add_0_r, !Z.eqb_refl. cbn [negb]. rewrite andb_false_r. reflexivity.
  - intros bytes h' rest Hby E. destruct (read_section_ok _ _ _ _ _ Hby E) as (_ & _ & _ & Hok).
    inversion Hok as [|x l [_ Hl] _]; subst. cbn in Hl. lia.
Qed.
Theorem C13_refuted : ~ (forall m ops h hb ob, Forall op_typed ops -> header_typed h ->
  write_section_header m h = (hb, Ok tt) -> write_ops m ops h = (ob, Ok tt) ->
  exists h', read_section m (hb ++ ob) = Ok (ops, h', [])).
Proof.
  intro H. set (bs := rep 7 65537). set (h := mkHeader 0 Interleaved false 1 (zlen bs) 1).
  assert (Hb : Forall is_byte bs) by (apply Forall_rep; unfold is_byte; lia).
  assert (Hl : zlen bs = 65537) by (unfold bs; rewrite zlen_rep; lia).
  destruct (C13_long_add_accepted_but_unreadable Debug bs Interleaved false Hb ltac:(lia)) as [H1 H2].
  { rewrite Hl. vm_compute. reflexivity. }
  replace (zlen bs mod 65536) with 1 in H1 by (rewrite Hl; reflexivity). fold h in H1.
  assert (Hw : write_section_header Debug h = ([0; 1; 1], Ok tt)) by reflexivity.
  destruct (write_ops Debug [Add bs] h) as [ob r] eqn:E. cbn [snd] in H1. subst r.
  assert (Ht : header_typed h) by (unfold header_typed, h; cbn [h_comp h_nops h_nadd h_osize]; rewrite Hl; lia).
  assert (Hty : Forall op_typed [Add bs]) by (apply Forall_cons; [exact Hb|constructor]).
  destruct (H Debug [Add bs] h _ ob Hty Ht Hw E) as (h' & Hr).
  refine (H2 _ _ _ _ Hr). apply byteb_ok.
  assert (Eo : ob = fst (write_ops Debug [Add bs] h)) by (rewrite E; reflexivity). rewrite Eo. vm_compute. reflexivity.
Qed.

(** C14. Writer panics: exactly when the two checks made first pass and some Run has length 0 or above 62 (or, with overflow
    checks, some copy address lies exactly 2^63 below the previous one of its kind). *)
Theorem C14_writer_panics_exactly : forall m ops h, Forall op_typed ops ->
  (snd (write_ops m ops h) = Panic <->
   h_osize h <= max_win_size /\ h_nops h = zlen ops /\
   ((exists b n, In (Run b n) ops /\ (n = 0 \/ 62 < n)) \/ (m = Debug /\ has_min_delta 0 0 ops = true))).
Proof.
  intros m ops h Ht. rewrite (write_ops_cases m ops h Ht).
  assert (Hrun : existsb bad_run ops = true <-> exists b n, In (Run b n) ops /\ (n = 0 \/ 62 < n)).
  { rewrite existsb_exists. split.
    - intros (x & Hin & Hx). destruct x as [bs|b n|s a n]; try discriminate. exists b, n. cbn in Hx. split; [exact Hin|lia].
    - intros (b & n & Hin & Hn). exists (Run b n). split; [exact Hin|]. cbn. lia. }
  destruct (max_win_size <? h_osize h) eqn:E1; [split; [discriminate|lia]|].
  destruct (zlen ops =? h_nops h) eqn:E2; cbn [negb]; [|split; [discriminate|lia]].
  destruct (existsb bad_run ops || is_debug m && has_min_delta 0 0 ops) eqn:E3.
  - split; [intros _|reflexivity]. split; [lia|]. split; [lia|]. apply orb_true_iff in E3 as [E3|E3].
    + left. now apply Hrun.
    + right. apply andb_true_iff in E3 as [Em E3]. split; [destruct m; [reflexivity|discriminate]|exact E3].
  - apply orb_false_iff in E3 as [E3 E4]. split.
    + destruct (is_segregated (h_format h) && negb (adds_len ops =? h_nadd h)); [discriminate|].
      destruct (negb (wires_len ops =? h_osize h)); discriminate.
    + intros (_ & _ & [H|[-> H]]).
      * apply Hrun in H. congruence.
      * cbn in E4. congruence.
Qed.
Example C14_example : snd (write_ops Release [Run 5 63] (mkHeader 0 Interleaved false 1 0 63)) = Panic /\
  snd (write_ops Debug [Copy Dict (2 ^ 63 + 4) 1; Copy Dict 4 1] (mkHeader 0 Interleaved false 2 0 2)) = Panic.
Proof. vm_compute. auto. Qed.

(** C15. Sectioning is a partition within the limits. (The operation count is a u32: fewer than 2^32 operations, or any
    number of non-empty ones.) *)
Theorem C15_make_sections_partition : forall ops n, Forall op_ok ops ->
  (zlen ops < 2 ^ 32 \/ Forall (fun o => 1 <= op_len o) ops) ->
  concat (map fst (make_sections ops n)) = ops /\
  Forall (fun s => header_for (snd s) (fst s) /\ h_osize (snd s) <= clamp_section n /\
                   h_comp (snd s) = 0 /\ h_format (snd s) = Interleaved) (make_sections ops n) /\
  flags_ok (map snd (make_sections ops n)) /\
  (ops <> [] -> Forall (fun s => fst s <> []) (make_sections ops n)) /\
  (ops = [] -> make_sections ops n = [([], mkHeader 0 Interleaved false 0 0 0)]).
Proof.
  intros ops n Hok Hlen. destruct (make_sections_spec ops n Hok Hlen) as ((H1 & H2) & H3 & H4 & H5).
  split; [exact H3|]. split; [|auto]. revert H1. apply Forall_impl. intuition.
Qed.
Example C15_example : Forall op_ok ex_ops /\ map (fun s => zlen (fst s)) (make_sections ex_ops 1) = [6; 1].
Proof. split; [apply ops_okb_ok; reflexivity|vm_compute; reflexivity]. Qed.

(** C16. The add-byte count of the header returned by reading: twice the true number in segregated sections, 0 in
    interleaved ones, for every written section. So "the header reports the real number of add bytes" is refuted
    (it holds only for sections without literals). *)
Theorem C16_read_header_add_bytes : forall m ops h hb ob rest, section_in m (ops, h) ->
  write_section_header m h = (hb, Ok tt) -> write_ops m ops h = (ob, Ok tt) ->
  exists h', read_section m (hb ++ ob ++ rest) = Ok (ops, h', rest) /\
    h_nadd h' = match h_format h with Segregated => 2 * adds_len ops | Interleaved => 0 end /\
    (h_nadd h' = adds_len ops <-> adds_len ops = 0).
Proof.
  intros m ops h hb ob rest Hin Hh Ho.
  destruct (section_written m ops h hb ob Hin Hh Ho) as (_ & _ & _ & Hok & _ & Hrs).
  destruct (Hrs rest) as (h' & E & (_ & _ & _ & _ & _ & Hn)). exists h'. split; [exact E|]. split; [exact Hn|].
  pose proof (adds_len_bounds ops Hok). rewrite Hn. destruct (h_format h); lia.
Qed.
Theorem C16_refuted : exists h' rest, read_section Debug [64; 1; 2; 0; 130; 5; 6] = Ok ([Add [5; 6]], h', rest) /\ h_nadd h' = 4.
Proof. eexists; eexists. split; [vm_compute; reflexivity|reflexivity]. Qed.

(** C17. A successful read agrees with the header: operation count, sum of lengths (exactly with overflow checks, modulo
    2^32 without), and every operation is within the format limits. *)
Theorem C17_read_agrees_with_header : forall m bs ops h rest, Forall is_byte bs -> read_section m bs = Ok (ops, h, rest) ->
  zlen ops = h_nops h /\ h_osize h = ops_len ops mod 2 ^ 32 /\ (m = Debug -> h_osize h = ops_len ops) /\ Forall op_ok ops.
Proof. exact read_section_ok. Qed.
Example C17_example : exists ops h, read_section Debug [0; 1; 2; 130; 5; 6] = Ok (ops, h, []) /\ ops = [Add [5; 6]].
Proof. eexists; eexists. split; [vm_compute; reflexivity|reflexivity]. Qed.
(** Without overflow checks 65537 copies of 65535 bytes and one of 1 byte pass as a section of output size 0. *)
Definition oversized : list Z := [0; 130; 128; 4; 0] ++ concat (rep [0; 255; 255; 0] 65537) ++ [1; 0].
Theorem C17_release_oversized_refuted : exists ops h, read_section Release oversized = Ok (ops, h, []) /\
  h_osize h = 0 /\ ops_len ops = 2 ^ 32.
Proof.
  assert (G : match read_section Release oversized with
              | Ok (o, h, r) => (h_osize h =? 0) && (ops_len o =? 2 ^ 32) && (zlen r =? 0) | _ => false end = true)
    by (vm_compute; reflexivity).
  revert G. generalize (read_section Release oversized). intros [[[ops h] rest]|e| |] G; try discriminate.
  apply andb_true_iff in G as [G G3]. apply andb_true_iff in G as [G1 G2].
  exists ops, h. assert (rest = []) by (apply zlen_0; lia). subst. split; [reflexivity|lia].
Qed.

(** C20. The reader accepts every conforming encoding of an operation (grammar [op_enc] of Spec.v). *)
Theorem C20_reader_accepts_conforming : forall m d o bs x rest, 0 <= d < 2 ^ 64 -> 0 <= o < 2 ^ 64 -> op_enc d o bs x ->
  read_op m d o true (bs ++ rest) = Ok (x, next_d d x, next_o o x, rest).
Proof. intros. apply read_op_conf; auto. Qed.
Example C20_example : op_enc 10 0 [63; 238; 133; 0] (Copy Dict 7 300) /\
  write_op_byte_and_size (Copy Dict 7 300) <> ([63; 238], Ok tt).
Proof.
  split; [|vm_compute; congruence].
  apply (enc_copy 10 0 Dict 63 [238] 300 [133; 0] (-3)).
  - apply (size_u8 238). unfold is_byte; lia.
  - apply (leb_more 133 [0] 0); [lia|]. constructor; lia.
  - vm_compute; congruence.
  - lia.
Qed.

(** C21. The operation byte written for every operation carries the operation type in its two HIGH bits and the size value
    in its six LOW bits; the table of spec.md 4.2.1 (type in bits 0-1, size value in bits 2-7) is refuted. *)
Theorem C21_operation_byte_layout : forall x, op_ok x ->
  exists b rest, write_op_byte_and_size x = (b :: rest, Ok tt) /\ is_byte b /\ b / 64 = type_code x /\
    size_enc (b mod 64) rest (op_len x).
Proof.
  intros x Hx. destruct (write_op_head x Hx) as (s & sb & E & Hs & _). exists (64 * type_code x + s), sb.
  destruct (size_enc_range _ _ _ Hs) as (Hr & _). split; [exact E|].
  assert (0 <= type_code x <= 3) by (destruct x as [|?|[]]; cbn; lia).
  split; [unfold is_byte; lia|].
  rewrite (Z.mul_comm 64), Z.add_comm, Z.div_add, Z.mod_add, Z.div_small, Z.mod_small by lia. split; [lia|exact Hs].
Qed.
Theorem C21_spec_table_refuted : exists x b rest, op_ok x /\ write_op_byte_and_size x = (b :: rest, Ok tt) /\
  b mod 4 <> type_code x /\ b / 4 <> op_len x /\ 1 <= op_len x <= 62.
Proof.
  exists (Add [5]), 129, []. split; [|vm_compute; repeat split; congruence].
  split; [repeat constructor; unfold is_byte; lia|vm_compute; congruence].
Qed.

Print Assumptions C08_header_roundtrip.
Print Assumptions C09_operation_roundtrip.
Print Assumptions C10_section_roundtrip.
Print Assumptions C11_iterator_yields_written_sections.
Print Assumptions C12_writer_validation_exact.
Print Assumptions C13_long_add_accepted_but_unreadable.
Print Assumptions C13_refuted.
Print Assumptions C14_writer_panics_exactly.
Print Assumptions C15_make_sections_partition.
Print Assumptions C16_read_header_add_bytes.
Print Assumptions C16_refuted.
Print Assumptions C17_read_agrees_with_header.
Print Assumptions C17_release_oversized_refuted.
Print Assumptions C20_reader_accepts_conforming.
Print Assumptions C21_operation_byte_layout.
Print Assumptions C21_spec_table_refuted.
