(** Whole sections and patches against the layout of SpecFmt.v: what the API writes conforms, and whatever conforms is read. *)
From Verif Require Import Base Spec SpecFmt SpecEnc MCommon MWriter MReader MDecoder MOpMaker MTrgtMatcher MSrcMatcher MEncInner MEncode
  SpecApi PBase PCommon PStream PSection PWriter PDecoder PPatch POpMaker PEncInner PEncode PFormat.
Ltac Zify.zify_post_hook ::= idtac.
Arguments Z.add : simpl never.
Arguments Z.sub : simpl never.
Arguments Z.mul : simpl never.
Arguments Z.pow : simpl never.

(** ** Reading *)
Definition norm (h : header) : header := match h_format h with Segregated => h | Interleaved => set_nadd h 0 end.
Lemma norm_enc num v h hb : header_enc num v h hb -> header_enc num v (norm h) hb.
Proof.
  intro H. unfold norm. destruct (h_format h) eqn:Ef; [|exact H].
  inversion H; subst; [|congruence].
  change (control_byte v h) with (control_byte v (set_nadd h 0)). now apply he_interleaved.
Qed.
Lemma norm_read h : h_format h = Segregated \/ h_format h = Interleaved.
Proof. destruct (h_format h); auto. Qed.

Lemma read_enc_parts m v s hb bb : 0 <= v <= 7 -> sec_true s -> header_enc number v (snd s) hb -> body_enc (h_format (snd s)) (fst s) bb ->
  hb <> [] /\ exists hr, h_comp hr = h_comp (snd s) /\ (forall rest, read_section_header m (hb ++ rest) = Ok (hr, rest)) /\
  exists h', (forall rest, read_ops_no_comp m hr (bb ++ rest) = Ok (fst s, h', rest)) /\ h_more h' = h_more (snd s).
Proof.
  destruct s as [ops h]. cbn [fst snd]. intros Hv (Hc & Hn & Hn2 & Ho & Ho2 & Ha) Hh Hb. cbn [fst snd] in *. split; [inversion Hh; discriminate|].
  pose proof Hb as Hb'. destruct Hb as (e & He & Ebb). destruct (ops_enc_lens _ _ _ _ _ He) as [Hl1 Hl2].
  assert (Hal : adds_len ops <= ops_len ops).
  { clear - He. induction He as [d o|d o b x bs r Hf He Hr IH|d o s sb a bs r Hf Hs Hr IH]; [cbn; lia| |]; rewrite adds_len_cons, ops_len_cons.
    - pose proof (proj2 (enc_oal _ _ _ _ He)). assert (add_len x <= op_len x) by (destruct x; cbn in *; lia). lia.
    - cbn [add_len op_len]. lia. }
  pose proof (zlen_nonneg ops). unfold max_win_size in Ho2.
  assert (Hty : header_typed (norm h) /\ (h_format (norm h) = Segregated -> h_nadd (norm h) <= h_osize (norm h))).
  { unfold norm, header_typed. destruct (h_format h) eqn:Ef; cbn [set_nadd h_comp h_nops h_nadd h_osize h_format].
    - split; [lia|]. intros X. rewrite Ef in X. discriminate X.
    - specialize (Ha eq_refl). lia. }
  destruct Hty as [Hty Hle].
  exists (read_back (norm h)). split; [unfold norm; destruct (h_format h); reflexivity|]. split.
  { intro rest. apply (read_header_enc m v (norm h) hb rest Hv Hty Hle). now apply norm_enc. }
  assert (Hfm : h_format (read_back (norm h)) = h_format h) by (unfold read_back, norm; destruct (h_format h) eqn:E; cbn; rewrite ?E; reflexivity).
  assert (Hna : h_nadd (read_back (norm h)) = match h_format h with Segregated => adds_len ops | Interleaved => 0 end).
  { unfold read_back, norm. destruct (h_format h) eqn:E; cbn; rewrite ?E; [reflexivity|]. now apply Ha. }
  assert (Hnn : h_nops (read_back (norm h)) = zlen ops) by (unfold read_back, norm; destruct (h_format h) eqn:E; cbn; rewrite ?E; exact Hn).
  assert (Hoo : h_osize (read_back (norm h)) = ops_len ops) by (unfold read_back, norm; destruct (h_format h) eqn:E; cbn; rewrite ?E; exact Ho).
  assert (Hmo : forall n, h_more (set_nadd (read_back (norm h)) n) = h_more h) by (intro n; unfold read_back, norm; destruct (h_format h) eqn:E; cbn; rewrite ?E; reflexivity).
  exists (set_nadd (read_back (norm h)) (match h_format h with Segregated => 2 * adds_len ops | Interleaved => 0 end)). split; [|apply Hmo].
  intro rest. rewrite <- Hfm in Hb'.
  destruct (read_body_enc m (read_back (norm h)) ops bb rest Hb' Hnn Hoo) as (n & E & N1 & N2).
  { lia. } { rewrite Hna. destruct (h_format h); lia. }
  { rewrite Hfm, Hna. destruct (h_format h); [right; left; reflexivity|right; right; lia]. }
  rewrite E. do 4 f_equal. rewrite Hfm, Hna in *. destruct (h_format h); [apply N1; reflexivity|]. rewrite N2; [lia|reflexivity|lia].
Qed.

Lemma plain_enc_at m v s b : 0 <= v <= 7 -> section_enc plain_pack number v s b -> sec_at false (read_section m) b (fst s) (h_more (snd s)).
Proof.
  intros Hv (Ht & hb & bb & pb & Hh & Hb & [Ec ->] & ->).
  destruct (read_enc_parts m v s hb bb Hv Ht Hh Hb) as (Hne & hr & Hc & Rh & h' & Rb & Hm).
  split; [destruct hb; [contradiction|discriminate]|]. split; [|discriminate]. intro t. exists h'. split; [|exact Hm].
  unfold read_section. rewrite <- app_assoc, Rh. cbn [bind]. apply Rb.
Qed.
Lemma plain_enc_stream m v secs bs : 0 <= v <= 7 -> patch_enc plain_pack number v secs bs -> stream_of false (read_section m) (map fst secs) bs.
Proof.
  intros Hv. induction 1 as [s b Hm Hs|s b r bs Hm Hs Hr IH]; cbn [map]; apply (plain_enc_at m v s b Hv) in Hs; rewrite Hm in Hs; now constructor.
Qed.
Lemma ops_enc_nonneg f d o e ops : 0 <= d < 2 ^ 64 -> 0 <= o < 2 ^ 64 -> ops_enc f d o e ops -> Forall op_nonneg ops.
Proof.
  intros Hd Ho H. revert Hd Ho. induction H as [d o|d o b x bs r Hf He Hr IH|d o s sb a bs r Hf Hs Hr IH]; intros Hd Ho; constructor.
  - destruct He as [s sb bs0 Hs|n b0 Hn|src s sb n db delta Hs Hl Hlen Hdl]; cbn; [exact I|lia|].
    destruct (size_enc_range _ _ _ Hs) as (_ & Hr' & _). split; [|lia]. apply Z.mod_pos_bound; lia.
  - destruct (next_range _ _ _ _ Hd Ho He) as [Hd' Ho']. now apply IH.
  - exact I.
  - now apply IH.
Qed.
Lemma patch_enc_nonneg pack num v secs bs : patch_enc pack num v secs bs -> Forall op_nonneg (concat (map fst secs)).
Proof.
  assert (S : forall s b, section_enc pack num v s b -> Forall op_nonneg (fst s)).
  { intros s b (_ & hb & bb & pb & _ & (e & He & _) & _). exact (ops_enc_nonneg _ 0 0 _ _ ltac:(lia) ltac:(lia) He). }
  induction 1 as [s b Hm Hs|s b r bs Hm Hs Hr IH]; cbn [map concat]; apply Forall_app; split; eauto.
Qed.

Definition decodes (dec : list Z -> res (list Z * list Z)) (rel : list Z -> list Z -> Prop) : Prop :=
  forall b p t, rel b p -> dec (p ++ t) = Ok (b, t).
Lemma nodict_forallb ops : existsb is_dict_copy ops = false -> forallb (fun o => negb (is_dict_copy o)) ops = true.
Proof.
  intro H. apply forallb_forall. intros x Hx. destruct (is_dict_copy x) eqn:Ex; [|reflexivity].
  assert (existsb is_dict_copy ops = true) by (apply existsb_exists; eauto). congruence.
Qed.
Lemma any_enc_at m cd zs br v s b : 0 <= v <= 7 -> decodes (zstd_dec cd) zs -> decodes (brotli_dec cd) br ->
  section_enc (any_pack zs br number v) number v s b -> sec_at false (next_section m cd) b (fst s) (h_more (snd s)).
Proof.
  intros Hv Hz Hbr (Ht & hb & bb & pb & Hh & Hb & Hp & ->).
  destruct (read_enc_parts m v s hb bb Hv Ht Hh Hb) as (Hne & hr & Hc & Rh & h' & Rb & Hm).
  split; [destruct hb; [contradiction|discriminate]|]. split; [|discriminate]. intro t. exists h'. split; [|exact Hm].
  unfold next_section. rewrite <- app_assoc, Rh. cbn [bind]. rewrite <- Hc in Hp. pose proof (Rb []) as Rb0. rewrite app_nil_r in Rb0.
  assert (C : h_comp hr = 0 \/ h_comp hr = 1 \/ h_comp hr = 2 \/ h_comp hr = 3 \/ 4 <= h_comp hr <= 7) by (destruct Ht as (Ht & _); lia).
  destruct C as [C|[C|[C|[C|C]]]].
  - rewrite C in *. cbn [any_pack Z.eqb Pos.eqb] in *. subst pb. apply Rb.
  - rewrite C in *. cbn [any_pack Z.eqb Pos.eqb] in *. destruct Hp as (secs & Hpe & Hrun & Hnd).
    pose proof (plain_enc_stream m v secs pb Hv Hpe) as Hst. unfold apply_no_sec_comp.
    rewrite (apply_loop_no_dict false (read_section m) [] _ _ Hst) by (now apply nodict_forallb).
    destruct (apply_loop_stream false (read_section m) _ _ Hst (S (length (pb ++ t))) [] [] [] 0 t ltac:(lia) (patch_enc_nonneg _ _ _ _ _ Hpe)) as (p & E).
    apply perform_true in Hrun. rewrite Hrun in E. rewrite !over_nil in E. change (zlen (@nil Z)) with 0 in E. rewrite E. cbn [sbuf].
    rewrite Rb0. reflexivity.
  - rewrite C in *. cbn [any_pack Z.eqb Pos.eqb] in *. rewrite (Hz _ _ t Hp). cbn [bind]. rewrite Rb0. reflexivity.
  - rewrite C in *. cbn [any_pack Z.eqb Pos.eqb] in *. rewrite (Hbr _ _ t Hp). cbn [bind]. rewrite Rb0. reflexivity.
  - exfalso. assert (D : h_comp hr = 4 \/ h_comp hr = 5 \/ h_comp hr = 6 \/ h_comp hr = 7) by lia. destruct D as [D|[D|[D|D]]]; rewrite D in Hp; exact Hp.
Qed.
Lemma any_enc_stream m cd zs br v secs bs : 0 <= v <= 7 -> decodes (zstd_dec cd) zs -> decodes (brotli_dec cd) br ->
  patch_enc (any_pack zs br number v) number v secs bs -> stream_of false (next_section m cd) (map fst secs) bs.
Proof.
  intros Hv Hz Hb. induction 1 as [s b Hm Hs|s b r bs Hm Hs Hr IH]; cbn [map]; apply (any_enc_at m cd zs br v s b Hv Hz Hb) in Hs; rewrite Hm in Hs; now constructor.
Qed.

(** ** Writing *)
Lemma sec_parts_enc f ops h a m hb ob : sec_in f max_win_size (ops, h) -> 0 <= a <= 7 ->
  write_section_header m (set_comp h a) = (hb, Ok tt) -> write_ops m ops (set_comp h a) = (ob, Ok tt) ->
  sec_true (ops, set_comp h a) /\ header_enc short_number 0 (set_comp h a) hb /\ body_enc (h_format (set_comp h a)) ops ob.
Proof.
  intros (Hok & Hd & Hc & Hf & (_ & Hty1 & Hty2 & Hty3) & Hm0 & Hmax) Ha Hh Ho. cbn [fst snd] in *.
  pose proof (adds_len_bounds _ Hok) as Hal. pose proof Hm0 as (Hmx & Hn & Hos & Had).
  split; [|split].
  - unfold sec_true. destruct h as [hc hf hm hn hna hos]. cbn [set_comp fst snd h_comp h_format h_nops h_osize h_nadd] in *.
    split; [lia|]. split; [lia|]. split; [lia|]. split; [lia|]. split; [lia|]. exact Had.
  - apply (written_header m); [|intro Hs; destruct h; cbn in *; rewrite (Had Hs); lia|exact Hh]. destruct h; unfold header_typed; cbn in *. lia.
  - exact (written_body m ops _ ob Hok Hd Ho).
Qed.
Lemma write_sections_enc m pack wr f a src trgt :
  (forall ops h b, sec_in f max_win_size (ops, h) -> wr ops h = (b, Ok tt) -> section_enc pack short_number 0 (ops, set_comp h a) b) ->
  forall secs cur b, Forall (fun s => sec_in f max_win_size (fst s, set_format (snd s) f)) secs -> flags_ok (map snd secs) ->
  write_sections m wr f src trgt cur secs = (b, Ok tt) -> patch_enc pack short_number 0 (map (sec_with f a) secs) b.
Proof.
  intros Hwr. induction secs as [|[ops h] secs IH]; intros cur b Hin Hfl H; [contradiction|].
  apply Forall_cons_iff in Hin as [Hi Hin]. cbn [fst snd] in Hi. cbn [write_sections] in H. cbv zeta in H.
  apply wbind_ok in H as (o1 & [] & o2 & Hc & H & ->). apply wlift_inv in Hc as [-> Hc]. cbn [app].
  apply wbind_ok in H as (o3 & [] & o4 & Hw & H & ->). pose proof (Hwr _ _ _ Hi Hw) as Hg.
  cbn [map sec_with fst snd flags_ok] in *. destruct secs as [|s2 secs].
  - cbn in H. injection H as <-. rewrite app_nil_r. apply pe_last; [exact Hfl|exact Hg].
  - destruct Hfl as [Hm Hfl]. apply pe_more; [exact Hm|exact Hg|]. eapply IH; eassumption.
Qed.
Lemma encode_with_enc m pack wr ic f a seg src trgt b :
  (forall ops h b, sec_in f max_win_size (ops, h) -> wr ops h = (b, Ok tt) -> section_enc pack short_number 0 (ops, set_comp h a) b) ->
  Forall is_byte trgt -> zlen trgt < 2 ^ 63 -> zlen src < 2 ^ 63 -> encode_with m wr ic f seg src trgt = (b, Ok tt) ->
  exists secs, patch_enc pack short_number 0 secs b /\ run_ops src [] (concat (map fst secs)) = Some trgt /\
    (src = [] -> existsb is_dict_copy (concat (map fst secs)) = false) /\ Forall (fun s => h_format (snd s) = f /\ h_comp (snd s) = a) secs.
Proof.
  intros Hwr Hb Ht Hs H. destruct (encode_with_inv _ _ _ _ _ _ _ _ H) as (cs & ops & Hc & Hp & Hw). clear H.
  assert (Ht' : zlen trgt < 2 ^ 64) by lia. assert (Hs' : zlen src < 2 ^ 64) by lia.
  destruct (encode_inner_sound m ic src trgt cs Hb Ht' Hs' Hc) as [Hcs Hord].
  destruct (translate_ok m src trgt cs Hb Ht' Hs' Hcs Hord) as (ops' & Ho & Hmk & Hnd).
  rewrite Hp in Ho. injection Ho as <-.
  destruct (sections_in f seg src trgt ops Hmk Ht Hs) as (Hcat & Hfl & Hin).
  exists (map (sec_with f a) (make_sections ops seg)). rewrite sec_with_ops, Hcat. split; [|split; [apply Hmk|split; [exact Hnd|]]].
  - eapply write_sections_enc; [exact Hwr| |exact Hfl|exact Hw].
    eapply Forall_impl; [|exact Hin]. intros s (G1 & G2 & G3 & G4 & G5 & G5b & G6).
    repeat (split; [assumption|]). eapply Z.le_trans; [exact G6|]. unfold clamp_section, max_inst_size, max_win_size. lia.
  - rewrite Forall_map. apply Forall_forall. intros [o h] _. destruct h. cbn. auto.
Qed.
Lemma plain_writer_enc m f ops h b : sec_in f max_win_size (ops, h) -> plain_writer m ops h = (b, Ok tt) -> section_enc plain_pack short_number 0 (ops, set_comp h 0) b.
Proof.
  intros Hin H. assert (Hc : h_comp h = 0) by apply Hin. unfold plain_writer in H.
  apply wbind_ok in H as (o1 & [] & o2 & H1 & H2 & ->). rewrite <- (set_comp_0 h Hc) in H1, H2.
  destruct (sec_parts_enc f ops h 0 m o1 o2 Hin ltac:(lia) H1 H2) as (Ht & He & Hb). split; [exact Ht|]. exists o1, o2, o2.
  split; [exact He|]. split; [exact Hb|]. split; [|reflexivity]. destruct h; split; reflexivity.
Qed.
Definition enc_by (enc : Z -> list Z -> list Z) (b p : list Z) : Prop := exists setting, p = enc setting b.
Lemma section_writer_enc m cd sc f ops h b : sec_in f max_win_size (ops, h) -> section_writer m cd sc ops h = (b, Ok tt) ->
  section_enc (any_pack (enc_by (zstd_enc cd)) (enc_by (brotli_enc cd)) short_number 0) short_number 0 (ops, set_comp h (comp_value sc)) b.
Proof.
  intros Hin H. destruct sc as [comp|]; cbn [section_writer comp_value] in *.
  2: { destruct (plain_writer_enc m f ops h b Hin H) as (Ht & hb & bb & pb & He & Hb & [Hc ->] & ->). split; [exact Ht|]. exists hb, bb, bb.
       split; [exact He|]. split; [exact Hb|]. split; [|reflexivity]. rewrite Hc. reflexivity. }
  cbv zeta in H. apply wbind_ok in H as (hb & [] & o2 & H1 & H2 & ->). assert (Ha : 0 <= algo_value comp <= 7) by (destruct comp; cbn; lia).
  destruct (write_ops m ops (set_comp h (algo_value comp))) as [ob r] eqn:E2. apply wbind_ok in H2 as (o3 & [] & z & Hr & Hz & ->).
  apply wlift_inv in Hr as [-> ->]. cbn [app].
  destruct (sec_parts_enc f ops h (algo_value comp) m hb ob Hin Ha H1 E2) as (Ht & He & Hb). split; [exact Ht|]. exists hb, ob, z.
  split; [exact He|]. split; [exact Hb|]. split; [|reflexivity]. cbn [snd]. replace (h_comp (set_comp h (algo_value comp))) with (algo_value comp) by (destruct h; reflexivity).
  destruct comp as [c|l|o]; cbn [algo_value any_pack] in *.
  - destruct (sec_write f ops h 1 Hin ltac:(lia)) as (hb' & ob' & _ & E2' & _ & Hob & Hlob & _). rewrite E2' in E2. injection E2 as <-.
    unfold encode_nocomp in Hz. assert (Hn0 : zlen (@nil Z) < 2 ^ 63) by (rewrite (@zlen_nil Z); lia).
    destruct (encode_with_enc m plain_pack _ _ _ 0 _ _ _ _ (fun ops h b Hi Hw => plain_writer_enc m _ ops h b Hi Hw) Hob Hlob Hn0 Hz) as (secs & P1 & P2 & P3 & _).
    exists secs. split; [exact P1|]. split; [exact P2|]. apply P3. reflexivity.
  - unfold wput in Hz. injection Hz as <-. exists l. reflexivity.
  - unfold wput in Hz. injection Hz as <-. exists o. reflexivity.
Qed.

(** Short numbers are numbers. *)
Lemma short_header v h hb : header_typed h -> (h_format h = Segregated -> h_nadd h <= h_osize h) -> header_enc short_number v h hb -> header_enc number v h hb.
Proof.
  intros (H1 & H2 & H3 & H4) Hle H. inversion H; subst.
  - apply he_interleaved; [assumption| |]; apply short_is_number; try assumption; lia.
  - apply he_segregated; [assumption| | |]; apply short_is_number; try assumption; try lia.
Qed.
