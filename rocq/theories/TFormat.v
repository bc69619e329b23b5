(** Properties C63-C65: the layout of spec.md (SpecFmt.v) against what is written and what is read. *)
From Verif Require Import Base Spec SpecFmt SpecEnc MCommon MWriter MReader MDecoder MOpMaker MTrgtMatcher MSrcMatcher MEncInner MEncode
  SpecApi PBase PCommon PStream PSection PWriter PDecoder PPatch POpMaker PEncInner PEncode PFormat PFormat2 TApply.
Ltac Zify.zify_post_hook ::= idtac.

(** C63. Whatever encode returns has the layout of the specification, version 0, with every number in its shortest form: sections with true
    headers in the requested format and with the requested compression, the continuation bit on all but the last, stored bodies that are
    (a compressed form of) the encoded operations, and these operations produce the target. *)
Theorem C63_encode_conforms : forall m cd c dict trgt patch, Forall is_byte trgt -> zlen trgt < 2 ^ 63 -> zlen (source_of dict) < 2 ^ 63 ->
  encode m cd c dict trgt = (patch, Ok tt) ->
  exists secs, patch_enc (any_pack (enc_by (zstd_enc cd)) (enc_by (brotli_enc cd)) short_number 0) short_number 0 secs patch /\
    run_ops (source_of dict) [] (concat (map fst secs)) = Some trgt /\
    Forall (fun s => h_format (snd s) = cf_format c /\ h_comp (snd s) = comp_value (cf_comp c)) secs.
Proof.
  intros m cd c dict trgt patch Hb Ht Hs H. unfold encode in H. cbv zeta in H.
  destruct (encode_with_enc m _ _ _ _ (comp_value (cf_comp c)) _ _ _ _ (fun ops h b Hi Hw => section_writer_enc m cd (cf_comp c) (cf_format c) ops h b Hi Hw) Hb Ht Hs H)
    as (secs & P1 & P2 & _ & P4). exists secs. auto.
Qed.
(** The same for every patch written section by section with the writer, in plain sections. *)
Theorem C63_writer_conforms : forall m secs bs, written m secs bs -> Forall (section_in Debug) secs ->
  Forall (fun s => h_comp (snd s) = 0) secs -> patch_enc plain_pack short_number 0 secs bs.
Proof.
  assert (S : forall m ops h hb ob, section_in Debug (ops, h) -> h_comp h = 0 -> write_section_header m h = (hb, Ok tt) -> write_ops m ops h = (ob, Ok tt) ->
    section_enc plain_pack short_number 0 (ops, h) (hb ++ ob)).
  { intros m ops h hb ob (Ht & Ha & Hh & Hm) Hc H1 H2. cbn [fst snd] in *.
    destruct (written_ops_ok m ops h ob Ht Ha H2) as [Hok Hmat]. pose proof Hmat as (Hmx & Hn & Ho & Had). pose proof (adds_len_bounds _ Hok) as Hal.
    assert (Hm' : deltas_ok 0 0 ops) by (destruct Hm as [Hm|Hm]; [discriminate|exact Hm]).
    destruct Hh as (Hh1 & Hh2 & Hh3 & Hh4).
    assert (Hty : header_typed h) by (split; [exact Hh1|]; split; [exact Hh2|]; split; assumption).
    split; [unfold sec_true; cbn [fst snd]; split; [lia|]; split; [lia|]; split; [lia|]; split; [lia|]; split; [lia|exact Had]|].
    exists hb, ob, ob. cbn [fst snd]. split; [apply (written_header m h hb Hty); [intro Es; rewrite (Had Es); lia|exact H1]|].
    split; [exact (written_body m ops h ob Hok Hm' H2)|]. split; [split; [exact Hc|reflexivity]|reflexivity]. }
  intros m secs bs. induction 1 as [ops h hb ob Hm Hwh Hwo|ops h hb ob secs bs Hm Hwh Hwo Hw IH]; intros Hin Hp;
    apply Forall_cons_iff in Hin as [Hi Hin]; apply Forall_cons_iff in Hp as [Hp0 Hp]; cbn [snd] in Hp0.
  - apply pe_last; [exact Hm|]. eapply S; eassumption.
  - rewrite app_assoc. apply pe_more; [exact Hm|eapply S; eassumption|]. apply IH; assumption.
Qed.
Example C63_example : forall m cd, let h := mkHeader 0 Segregated false 3 2 9 in let ops := [Add [5; 6]; Run 7 4; Copy Output 1 3] in
  written m [(ops, h)] [64; 3; 2; 7; 130; 196; 7; 67; 2; 5; 6] /\ section_in Debug (ops, h) /\
  patch_enc plain_pack short_number 0 [(ops, h)] [64; 3; 2; 7; 130; 196; 7; 67; 2; 5; 6] /\
  fst (encode m cd (mkConfig None None None Segregated 100 None None) None [5; 6; 7]) = [64; 1; 3; 0; 131; 5; 6; 7].
Proof.
  intros m cd h ops.
  assert (W : written m [(ops, h)] [64; 3; 2; 7; 130; 196; 7; 67; 2; 5; 6]).
  { apply (written_last m ops h [64; 3; 2; 7] [130; 196; 7; 67; 2; 5; 6]); [reflexivity|destruct m; reflexivity|destruct m; reflexivity]. }
  assert (S : section_in Debug (ops, h)).
  { split; [|split; [|split]]; cbn [fst snd].
    - repeat constructor; unfold is_byte; lia.
    - repeat constructor; vm_compute; congruence.
    - unfold header_typed; cbn; lia.
    - right. cbn. lia. }
  split; [exact W|]. split; [exact S|]. split; [|destruct m; vm_compute; reflexivity].
  apply (C63_writer_conforms m _ _ W); constructor; auto.
Qed.

(** C64. Whatever has the layout is accepted and has the meaning of its operations: any version bits, any form of the numbers of at most 10
    bytes, any form of the sizes, any section format and any compression whose decoder undoes it; bytes behind the patch do not matter. *)
Theorem C64_reader_accepts_conforming_patch : forall m cd (zstd brotli : list Z -> list Z -> Prop) v secs bs t dict, 0 <= v <= 7 ->
  (forall b p u, zstd b p -> zstd_dec cd (p ++ u) = Ok (b, u)) -> (forall b p u, brotli b p -> brotli_dec cd (p ++ u) = Ok (b, u)) ->
  patch_enc (any_pack zstd brotli number v) number v secs bs ->
  match run_ops dict [] (concat (map fst secs)) with
  | Some out => exists p, apply_patch m cd (bs ++ t) (Some dict) empty_sink = (mkSink out p, Ok tt)
  | None => snd (apply_patch m cd (bs ++ t) (Some dict) empty_sink) = Err EOF
  end.
Proof.
  intros m cd zs br v secs bs t dict Hv Hz Hb H.
  pose proof (any_enc_stream m cd zs br v secs bs Hv Hz Hb H) as Hs.
  destruct (apply_patch_stream _ m cd _ bs t dict [] 0 Hs (patch_enc_nonneg _ _ _ _ _ H)) as (p & E).
  unfold empty_sink. rewrite E, perform_run.
  destruct (run_ops dict [] (concat (map fst secs))) as [out|]; [|reflexivity].
  exists p. now rewrite over_nil.
Qed.
(** The same for reading section by section. *)
Theorem C64_reader_accepts_conforming_section : forall m v ops h bs rest, 0 <= v <= 7 -> section_enc plain_pack number v (ops, h) bs ->
  exists h', read_section m (bs ++ rest) = Ok (ops, h', rest) /\ h_more h' = h_more h.
Proof. intros m v ops h bs rest Hv H. destruct (plain_enc_at m v (ops, h) bs Hv H) as (_ & Hr & _). exact (Hr rest). Qed.
(** Version 5, overlong numbers, a two-byte size form the writer never uses, first section compressed by a patch of its own. *)
Definition ex_ops1 : list op := [Add [5]; Copy Output 0 1].
Definition ex_ops2 : list op := [Run 9 62; Copy Output 0 64].
Definition ex_inner : list Z := [5; 129; 0; 4; 132; 129; 5; 65; 0].
Definition ex_conf : list Z := ([141; 2; 130; 0] ++ ex_inner) ++ [5; 2; 126; 254; 9; 127; 2; 0].
Example C64_example : forall zstd brotli : list Z -> list Z -> Prop,
  patch_enc (any_pack zstd brotli number 5) number 5 [(ex_ops1, mkHeader 1 Interleaved true 2 0 2); (ex_ops2, mkHeader 0 Interleaved false 2 0 126)] ex_conf /\
  run_ops [] [] (ex_ops1 ++ ex_ops2) = Some ([5; 5] ++ rep 9 62 ++ [5; 5] ++ rep 9 62).
Proof.
  intros zstd brotli.
  assert (sn : forall n, 0 <= n < 128 -> number [n] n) by (intros n Hn; split; [now constructor|unfold zlen; cbn; lia]).
  assert (s2 : forall n, 0 <= n < 128 -> number [n + 128; 0] n).
  { intros n Hn. split; [|unfold zlen; cbn; lia]. replace n with ((n + 128 - 128) + 128 * 0) at 2 by lia. apply leb_more; [lia|]. constructor. lia. }
  split; [|vm_compute; reflexivity].
  apply pe_more; [reflexivity| |apply pe_last; [reflexivity|]].
  - split; [vm_compute; repeat split; congruence|]. exists [141; 2; 130; 0], [129; 5; 65; 0], ex_inner. split; [|split; [|split; [|reflexivity]]].
    + apply (he_interleaved number 5 (mkHeader 1 Interleaved true 2 0 2) [2] [130; 0]); [reflexivity|apply (sn 2); lia|apply (s2 2); lia].
    + exists [129; 5; 65; 0]. split; [|reflexivity].
      apply (oe_op Interleaved 0 0 [129; 5] (Add [5]) [65; 0]); [now left|apply (enc_add 0 0 1 [] [5]); constructor; cbn; lia|].
      apply (oe_op Interleaved 0 0 [65; 0] (Copy Output 0 1) []); [now left| |constructor].
      apply (enc_copy 0 0 Output 1 [] 1 [0] 0); [constructor; lia|constructor; cbn; lia|unfold zlen; cbn; lia|lia].
    + cbn [any_pack h_comp snd]. exists [([Add [129; 5; 65; 0]], mkHeader 0 Interleaved false 1 0 4)]. split; [|split; reflexivity].
      apply pe_last; [reflexivity|]. split; [vm_compute; repeat split; congruence|].
      exists [5; 129; 0; 4], [132; 129; 5; 65; 0], [132; 129; 5; 65; 0]. split; [|split; [|split; [split; reflexivity|reflexivity]]].
      * apply (he_interleaved number 5 (mkHeader 0 Interleaved false 1 0 4) [129; 0] [4]); [reflexivity|apply (s2 1); lia|apply (sn 4); lia].
      * exists [132; 129; 5; 65; 0]. split; [|reflexivity].
        apply (oe_op Interleaved 0 0 [132; 129; 5; 65; 0] (Add [129; 5; 65; 0]) []); [now left| |constructor].
        apply (enc_add 0 0 4 [] [129; 5; 65; 0]). apply (size_direct 4). lia.
  - split; [vm_compute; repeat split; congruence|]. exists [5; 2; 126], [254; 9; 127; 2; 0], [254; 9; 127; 2; 0]. split; [|split; [|split; [reflexivity|reflexivity]]].
    + apply (he_interleaved number 5 (mkHeader 0 Interleaved false 2 0 126) [2] [126]); [reflexivity|apply (sn 2); lia|apply (sn 126); lia].
    + exists [254; 9; 127; 2; 0]. split; [|reflexivity].
      apply (oe_op Interleaved 0 0 [254; 9] (Run 9 62) [127; 2; 0]); [now left|apply (enc_run 0 0 62 9); lia|].
      apply (oe_op Interleaved 0 0 [127; 2; 0] (Copy Output 0 64) []); [now left| |constructor].
      apply (enc_copy 0 0 Output 63 [2] 64 [0] 0); [apply (size_u8 2); unfold is_byte; lia|constructor; cbn; lia|unfold zlen; cbn; lia|lia].
Qed.

(** C65. How compact the written sizes are: for every operation but those of 64 to 317 bytes the head is the shortest the specification admits;
    for these it is a byte longer than necessary. "Sizes are written in the shortest form" is refuted. *)
Definition two_byte_size (n : Z) : Prop := 64 <= n <= 317.
Theorem C65_size_forms : forall x b sb, op_ok x -> write_op_byte_and_size x = (b :: sb, Ok tt) ->
  (~ two_byte_size (op_len x) -> forall s sb', size_enc s sb' (op_len x) -> zlen sb <= zlen sb') /\
  (two_byte_size (op_len x) -> zlen sb = 2 /\ size_enc 63 [op_len x - 62] (op_len x)).
Proof.
  intros x b sb Hx H. destruct (oal_op_ok x Hx) as [Ho Hr]. unfold write_op_byte_and_size in H. rewrite Ho in H.
  assert (Hrun : (if is_run x then op_len x <=? 62 else true) = true) by (destruct Hx as [Ht Hl]; destruct x as [bs|c n|s a n]; cbn in *; lia).
  rewrite Hrun in H. cbn [wlift assert_ wbind] in H. unfold size_routine in H. unfold two_byte_size.
  destruct ((1 <=? op_len x) && (op_len x <=? 62)) eqn:E.
  - unfold write_u8, wput in H. injection H as _ <-. split; [|lia]. intros _ s sb' _. rewrite (@zlen_nil Z). apply zlen_nonneg.
  - assert (Hnr : is_run x = false) by (destruct Hx as [Ht Hl]; destruct x as [bs|c n|s a n]; cbn in *; [reflexivity|lia|reflexivity]).
    rewrite Hnr in H. destruct (op_len x =? 63) eqn:E2; cbn [negb assert_ wlift wbind write_u8 wput app write_u16] in H.
    + injection H as _ <-. split; [|lia]. intros _ s sb' Hs. replace (zlen [_]) with 1 by reflexivity.
      inversion Hs; subst; unfold zlen; cbn; lia.
    + injection H as _ <-. split.
      * intros Hn s sb' Hs. inversion Hs as [k Hk E3 E4 E5|c Hc E3 E4 E5|lo hi Hlo Hhi E3 E4 E5]; unfold zlen; cbn; [lia| |lia].
        unfold is_byte in Hc. lia.
      * intros Hn. split; [reflexivity|]. replace (op_len x) with (op_len x - 62 + 62) at 2 by lia. apply size_u8. unfold is_byte. lia.
Qed.
(** So a shorter conforming patch with the same operation exists, and is read as the same operation. *)
Theorem C65_refuted : exists x w w', op_ok x /\ write_op_byte_and_size x = (firstn 3 w, Ok tt) /\ (exists r, write_op_addtl Release x 0 0 = (skipn 3 w, Ok r)) /\
  op_enc 0 0 w' x /\ zlen w' = zlen w - 1 /\ forall m rest, read_op m 0 0 true (w' ++ rest) = Ok (x, next_d 0 x, next_o 0 x, rest).
Proof.
  exists (Copy Dict 7 300), [0; 44; 1; 14], [63; 238; 14].
  assert (E : op_enc 0 0 [63; 238; 14] (Copy Dict 7 300)).
  { apply (enc_copy 0 0 Dict 63 [238] 300 [14] 7); [apply (size_u8 238); unfold is_byte; lia|constructor; cbn; lia|unfold zlen; cbn; lia|lia]. }
  split; [split; cbn; lia|]. split; [vm_compute; reflexivity|]. split; [eexists; vm_compute; reflexivity|]. split; [exact E|]. split; [reflexivity|].
  intros m rest. apply read_op_conf; [lia|lia|exact E|now left].
Qed.
Example C65_example : op_ok (Copy Dict 7 300) /\ two_byte_size (op_len (Copy Dict 7 300)) /\ op_ok (Copy Output 0 318) /\ ~ two_byte_size (op_len (Copy Output 0 318)).
Proof. unfold two_byte_size. repeat split; cbn; lia. Qed.

Print Assumptions C63_encode_conforms.
Print Assumptions C63_writer_conforms.
Print Assumptions C64_reader_accepts_conforming_patch.
Print Assumptions C64_reader_accepts_conforming_section.
Print Assumptions C65_size_forms.
Print Assumptions C65_refuted.
