(** Written patches: sections as streams, the iterator, and the lemmas behind the patch-level theorems. *)
From Verif Require Import Base Spec MCommon MWriter MReader MDecoder SpecApi PBase PCommon PStream PSection PWriter PDecoder.

Lemma written_ops_ok m ops h ob : Forall op_typed ops -> Forall (fun o => add_len o <= 65535) ops ->
  write_ops m ops h = (ob, Ok tt) -> Forall op_ok ops /\ header_matches h ops.
Proof.
  intros Ht Ha H. pose proof (write_ops_cases m ops h Ht) as E. rewrite H in E. cbn [snd] in E.
  rewrite (wires_len_short _ Ha) in E.
  destruct (max_win_size <? h_osize h) eqn:E1; [discriminate|].
  destruct (zlen ops =? h_nops h) eqn:E2; cbn [negb] in E; [|discriminate].
  destruct (existsb bad_run ops) eqn:E3; cbn [orb] in E; [discriminate|].
  destruct (is_debug m && has_min_delta 0 0 ops); [discriminate|].
  destruct (is_segregated (h_format h) && negb (adds_len ops =? h_nadd h)) eqn:E4; [discriminate|].
  destruct (ops_len ops =? h_osize h) eqn:E5; cbn [negb] in E; [|discriminate].
  split.
  - clear - Ht Ha E3. induction ops as [|x ops IH]; [constructor|].
    apply Forall_cons_iff in Ht as [Hx Ht]. apply Forall_cons_iff in Ha as [Hxa Ha].
    cbn [existsb] in E3. apply orb_false_iff in E3 as [Hb E3]. constructor; [|auto].
    split; [exact Hx|]. destruct x as [bs|b n|s a n]; cbn in *; lia.
  - unfold header_matches. split; [lia|]. split; [lia|]. split; [lia|].
    intro Hs. rewrite Hs in E4. cbn [is_segregated andb] in E4. lia.
Qed.

Lemma section_written m ops h hb ob : section_in m (ops, h) ->
  write_section_header m h = (hb, Ok tt) -> write_ops m ops h = (ob, Ok tt) ->
  hb <> [] /\ (forall rest, read_section_header m (hb ++ rest) = Ok (read_back h, rest)) /\
  (forall h' rest, h_format h' = h_format h -> h_nops h' = h_nops h -> h_osize h' = h_osize h ->
      0 <= h_nadd h' <= max_win_size ->
      read_ops_no_comp m h' (ob ++ rest) =
      Ok (ops, match h_format h with Segregated => set_nadd h' (h_nadd h' + adds_len ops) | Interleaved => h' end, rest)) /\
  Forall op_ok ops /\ header_matches h ops /\
  forall rest, exists h', read_section m (hb ++ ob ++ rest) = Ok (ops, h', rest) /\ header_back h ops h'.
Proof.
  intros (Ht & Ha & Hh & Hm) Hwh Hwo. cbn [fst snd] in *.
  destruct (written_ops_ok m ops h ob Ht Ha Hwo) as [Hok Hmat].
  destruct Hh as (Hc & Hn & Hna & Ho).
  destruct (section_roundtrip m ops h Hok Hm Hc Hna) as (hb' & ob' & E1 & E2 & Hne & Hrh & Hrs).
  { destruct Hmat as (_ & Hx & _). lia. }
  { exact Hmat. }
  assert (hb' = hb) by congruence. assert (ob' = ob) by congruence. subst.
  split; [exact Hne|]. split; [exact Hrh|]. split.
  { destruct (write_ops_roundtrip m ops h Hok Hm Hmat) as (enc & E3 & Hr). assert (enc = ob) by congruence. subst. exact Hr. }
  split; [exact Hok|]. split; [exact Hmat|]. intro rest. destruct (Hrs rest) as (h' & E & G). exists h'. split; [exact E|]. exact G.
Qed.

Lemma next_section_plain m cd bs h r : read_section_header m bs = Ok (h, r) -> plain h ->
  next_section m cd bs = read_ops_no_comp m h r /\ read_section m bs = read_ops_no_comp m h r.
Proof.
  intros E Hp. unfold next_section, read_section. rewrite E. cbn [bind].
  unfold plain in Hp. replace (h_comp h =? 1) with false by lia. replace (h_comp h =? 2) with false by lia.
  replace (h_comp h =? 3) with false by lia. auto.
Qed.

Lemma plain_section m cd ops h hb ob : section_in m (ops, h) -> plain h ->
  write_section_header m h = (hb, Ok tt) -> write_ops m ops h = (ob, Ok tt) ->
  sec_at true (next_section m cd) (hb ++ ob) ops (h_more h) /\ sec_at true (read_section m) (hb ++ ob) ops (h_more h).
Proof.
  intros Hin Hp Hwh Hwo. destruct (section_written m ops h hb ob Hin Hwh Hwo) as (Hne & Hrh & _ & Hok & Hmat & Hrs).
  assert (Hpb : plain (read_back h)) by exact Hp.
  assert (Hne' : hb ++ ob <> []) by (destruct hb; [contradiction|discriminate]).
  assert (Hread : forall t, exists h', read_section m ((hb ++ ob) ++ t) = Ok (ops, h', t) /\ h_more h' = h_more h).
  { intro t. rewrite <- app_assoc. destruct (Hrs t) as (h' & E & G). exists h'. split; [exact E|]. apply G. }
  assert (Htr : forall c1 c2, hb ++ ob = c1 ++ c2 -> c2 <> [] -> read_section m c1 = Err EOF).
  { intros c1 c2 E Hc. destruct (Hread []) as (h' & E1 & _).
    destruct (streaming_section m _ _ _ E1) as (c & Ec & _ & Hpre). rewrite !app_nil_r in Ec. subst c. eauto. }
  split.
  - split; [exact Hne'|]. split.
    + intro t. destruct (Hread t) as (h' & E & G). exists h'. split; [|exact G].
      rewrite <- app_assoc in *. destruct (next_section_plain m cd _ _ _ (Hrh (ob ++ t)) Hpb) as [-> E2]. congruence.
    + intros _ c1 c2 E Hc. pose proof (Htr c1 c2 E Hc) as Hbad.
      apply app_prefix_cases in E as [(x & Eb & -> & Hx)|(y & -> & ->)].
      * destruct (streaming_header m (hb ++ []) (read_back h) []) as (c & Ec & _ & Hpre); [apply Hrh|].
        rewrite !app_nil_r in Ec. subst c. unfold next_section. rewrite (Hpre _ _ Eb Hx). reflexivity.
      * destruct (next_section_plain m cd _ _ _ (Hrh y) Hpb) as [-> E2]. congruence.
  - split; [exact Hne'|]. split; [exact Hread|]. intros _. exact Htr.
Qed.

Lemma written_stream m cd secs bs : written m secs bs -> Forall (section_in m) secs -> Forall (fun s => plain (snd s)) secs ->
  stream_of true (next_section m cd) (map fst secs) bs /\ Forall op_ok (concat (map fst secs)).
Proof.
  induction 1 as [ops h hb ob Hm Hwh Hwo|ops h hb ob secs bs Hm Hwh Hwo Hw IH]; intros Hin Hp;
    apply Forall_cons_iff in Hin as [Hi Hin]; apply Forall_cons_iff in Hp as [Hp0 Hp]; cbn [snd] in Hp0.
  - destruct (plain_section m cd ops h hb ob Hi Hp0 Hwh Hwo) as [Hs _]. rewrite Hm in Hs.
    destruct (section_written m ops h hb ob Hi Hwh Hwo) as (_ & _ & _ & Hok & _).
    cbn. rewrite app_nil_r. split; [now constructor|exact Hok].
  - destruct (plain_section m cd ops h hb ob Hi Hp0 Hwh Hwo) as [Hs _]. rewrite Hm in Hs.
    destruct (section_written m ops h hb ob Hi Hwh Hwo) as (_ & _ & _ & Hok & _).
    destruct (IH Hin Hp) as [IH1 IH2]. cbn [map concat fst]. split; [|apply Forall_app; auto].
    rewrite app_assoc. constructor; assumption.
Qed.

(** ** The iterator *)
Lemma calls_done m k bs : calls m k (mkIter bs true) = Ok (repeat None k).
Proof. induction k as [|k IH]; [reflexivity|]. cbn [calls iter_next it_done bind]. unfold iter_next. cbn [it_done bind]. now rewrite IH. Qed.

Lemma calls_written m secs bs t k : written m secs bs -> Forall (section_in m) secs ->
  exists outs, calls m (length secs + k) (iter_new (bs ++ t)) = Ok (map Some outs ++ repeat None k) /\
    Forall2 (fun s x => fst x = fst s /\ header_back (snd s) (fst s) (snd x)) secs outs.
Proof.
  intro Hw. induction Hw as [ops h hb ob Hm Hwh Hwo|ops h hb ob secs bs Hm Hwh Hwo Hw IH]; intros Hin;
    apply Forall_cons_iff in Hin as [Hi Hin];
    destruct (section_written m ops h hb ob Hi Hwh Hwo) as (_ & _ & _ & Hok & _ & Hrs).
  - destruct (Hrs t) as (h' & E & Hb). exists [(ops, h')]. split.
    + cbn [length plus calls iter_next]. unfold iter_next, iter_new. cbn [it_done it_source]. rewrite <- app_assoc, E. cbn [bind].
      destruct Hb as (_ & _ & Hmo & _). rewrite Hmo, Hm. cbn [negb]. rewrite calls_done. reflexivity.
    + constructor; [|constructor]. cbn. auto.
  - destruct (Hrs (bs ++ t)) as (h' & E & Hb). destruct (IH Hin) as (outs & Eo & Hall). exists ((ops, h') :: outs). split.
    + cbn [length plus calls]. unfold iter_next, iter_new in *. cbn [it_done it_source]. rewrite <- !app_assoc, E. cbn [bind].
      pose proof Hb as (_ & _ & Hmo & _). rewrite Hmo, Hm. cbn [negb]. rewrite Eo. reflexivity.
    + constructor; [|exact Hall]. cbn. auto.
Qed.

(** ** apply_patch *)
Lemma apply_patch_stream tr m cd secs bs t d old p : stream_of tr (next_section m cd) secs bs -> Forall op_nonneg (concat secs) ->
  exists p', apply_patch m cd (bs ++ t) (Some d) (mkSink old p) =
  let '(out, ok) := perform d old [] (concat secs) in (mkSink (over out old) p', if ok then Ok tt else Err EOF).
Proof.
  intros Hs Hn. unfold apply_patch.
  destruct (apply_loop_stream _ _ _ _ Hs (S (length (bs ++ t))) d old [] p t ltac:(lia) Hn) as (p' & E).
  cbn [app zlen length Z.of_nat] in E. rewrite over_0 in E. rewrite E. exists p'.
  destruct (perform d old [] (concat secs)) as [out [|]]; reflexivity.
Qed.

Lemma apply_patch_trunc m cd secs bs c1 c2 d s : stream_of true (next_section m cd) secs bs -> bs = c1 ++ c2 -> c2 <> [] ->
  snd (apply_patch m cd c1 (Some d) s) = Err EOF.
Proof.
  intros Hs E Hne. unfold apply_patch.
  pose proof (apply_loop_trunc _ _ _ Hs (S (length c1)) d s 0 c1 c2 E Hne ltac:(lia)) as H.
  destruct (apply_loop (next_section m cd) (S (length c1)) (Some d) c1 s 0) as [s' r]. cbn in H |- *. now rewrite H.
Qed.

Lemma apply_patch_suffix tr m cd secs bs t dict s : stream_of tr (next_section m cd) secs bs ->
  apply_patch m cd (bs ++ t) dict s = apply_patch m cd bs dict s.
Proof.
  intro Hs. unfold apply_patch.
  destruct (apply_loop_suffix _ _ _ _ Hs (S (length (bs ++ t))) (S (length bs)) dict s 0 t ltac:(lia) ltac:(lia)) as [H1 H2].
  destruct (apply_loop (next_section m cd) (S (length (bs ++ t))) dict (bs ++ t) s 0) as [s1 r1].
  destruct (apply_loop (next_section m cd) (S (length bs)) dict bs s 0) as [s2 r2]. cbn in H1, H2. subst s2.
  destruct r2; [destruct H2 as [-> ->]|rewrite H2..]; reflexivity.
Qed.

Lemma apply_patch_no_dict tr m cd d secs bs t s : stream_of tr (next_section m cd) secs bs ->
  forallb (fun o => negb (is_dict_copy o)) (concat secs) = true ->
  apply_patch m cd (bs ++ t) None s = apply_patch m cd (bs ++ t) (Some d) s.
Proof. intros Hs Hn. unfold apply_patch. now rewrite (apply_loop_no_dict _ _ d _ _ Hs Hn). Qed.

Lemma apply_patch_dict_panic tr m cd secs bs t old p pre x post : stream_of tr (next_section m cd) secs bs ->
  Forall op_nonneg (concat secs) -> concat secs = pre ++ x :: post ->
  forallb (fun o => negb (is_dict_copy o)) pre = true -> is_dict_copy x = true ->
  exists p', apply_patch m cd (bs ++ t) None (mkSink old p) =
  let '(out, ok) := perform [] old [] pre in (mkSink (over out old) p', if ok then Panic else Err EOF).
Proof.
  intros Hs Hn Ec Hp Hx. unfold apply_patch.
  destruct (apply_loop_dict_panic _ _ _ _ Hs (S (length (bs ++ t))) [] old [] p t pre x post ltac:(lia) Hn Ec Hp Hx) as (p' & E).
  cbn [app zlen length Z.of_nat] in E. rewrite over_0 in E. rewrite E. exists p'.
  destruct (perform [] old [] pre) as [out [|]]; reflexivity.
Qed.

(** ** Reading arbitrary bytes yields legal operations *)
Lemma streaming_rest_bytes {A} (p : list Z -> res (A * list Z)) bs v r : streaming p -> Forall is_byte bs -> p bs = Ok (v, r) ->
  Forall is_byte r.
Proof. intros Hs Hb H. destruct (Hs _ _ _ H) as (c & -> & _). now apply Forall_app in Hb. Qed.

Lemma read_section_typed m : next_typed_ok (read_section m).
Proof.
  intros bs ops h r Hb H. split; [now apply (read_section_ok m bs ops h r)|].
  exact (streaming_rest_bytes _ _ _ _ (streaming_section m) Hb H).
Qed.

Lemma apply_loop_none_some next d : forall fuel bs s pos s' r, apply_loop next fuel None bs s pos = (s', Ok r) ->
  apply_loop next fuel (Some d) bs s pos = (s', Ok r).
Proof.
  assert (G : forall ops s pos s' p u, apply_ops_loop None ops s pos = (s', p, Ok u) ->
            apply_ops_loop (Some d) ops s pos = (s', p, Ok u)).
  { induction ops as [|x ops IH]; intros s pos s' p u H; [exact H|].
    destruct x as [bs|b n|[] a n]; cbn [apply_ops_loop] in *; try (now apply IH); try discriminate.
    destruct (read_at (sbuf s) a n); try discriminate. now apply IH. }
  induction fuel as [|k IH]; intros bs s pos s' r H; cbn [apply_loop] in *; [discriminate|].
  destruct (next bs) as [[[ops h] rest]|e| |]; try discriminate.
  unfold apply_ops in *. destruct (apply_ops_loop None ops (sink_seek s pos) pos) as [[s1 p1] [u|e| |]] eqn:E; try discriminate.
  rewrite (G _ _ _ _ _ _ E). destruct (h_more h); [now apply IH|exact H].
Qed.

Lemma sections_read_bytes next bs secs r : next_typed_ok next -> Forall is_byte bs -> sections_read next bs secs r ->
  Forall op_ok (concat secs) /\ Forall is_byte r.
Proof.
  intros Hty Hb H. induction H as [bs|bs ops h r l r' E Hm Hs IH]; [split; [constructor|assumption]|].
  destruct (Hty _ _ _ _ Hb E) as [Hok Hbr]. destruct (IH Hbr) as [G1 G2].
  split; [|exact G2]. cbn [concat]. apply Forall_app. auto.
Qed.

Lemma next_section_typed m cd : codecs_bytes cd -> next_typed_ok (next_section m cd).
Proof.
  intros [Hz Hbr] bs ops h r Hb H. unfold next_section in H. apply bind_ok in H as ([h0 bs1] & H1 & H).
  destruct (read_header_ok _ _ _ _ Hb H1) as (Hn & Ho & _ & _ & Hb1 & _).
  assert (Hplain : forall dec ops h' r', Forall is_byte dec -> read_ops_no_comp m h0 dec = Ok (ops, h', r') ->
            Forall op_ok ops /\ Forall is_byte r').
  { intros dec ops' h' r' Hd E. split.
    - now destruct (read_ops_no_comp_ok _ _ _ _ _ _ Hd (proj1 Hn) Ho E) as (_ & _ & _ & _ & _ & _ & _ & _ & G).
    - exact (streaming_rest_bytes _ _ _ _ (streaming_read_ops m h0) Hd E). }
  destruct (h_comp h0 =? 1).
  - destruct (apply_no_sec_comp m None bs1 (mkSink [] 0)) as [s [rest|e| |]] eqn:E; try discriminate.
    apply bind_ok in H as ([[ops2 h2] r2] & H2 & H). injection H as <- <- <-.
    unfold apply_no_sec_comp in E. apply (apply_loop_none_some _ []) in E.
    change 0 with (zlen (@nil Z)) in E at 2.
    destruct (apply_loop_outcome _ (read_section_typed m) _ _ _ _ _ _ _ Hb1 E) as (secs & rs & Hsr & Hres).
    destruct (sections_read_bytes _ _ _ _ (read_section_typed m) Hb1 Hsr) as [G1 G2].
    destruct Hres as [(ops3 & h3 & E3 & _ & E4)|(E3 & _)]; [|discriminate].
    destruct (read_section_typed m _ _ _ _ G2 E3) as [G3 G4].
    apply perform_true in E4. apply perform_bytes in E4; [|constructor|constructor|apply Forall_app; auto].
    split; [|exact G4]. exact (proj1 (Hplain _ _ _ _ E4 H2)).
  - destruct (h_comp h0 =? 2).
    + apply bind_ok in H as ([dec rest] & H2 & H). apply bind_ok in H as ([[ops2 h2] r2] & H3 & H). injection H as <- <- <-.
      destruct (Hz _ _ _ Hb1 H2) as [G1 G2]. split; [|exact G2]. exact (proj1 (Hplain _ _ _ _ G1 H3)).
    + destruct (h_comp h0 =? 3).
      * apply bind_ok in H as ([dec rest] & H2 & H). apply bind_ok in H as ([[ops2 h2] r2] & H3 & H). injection H as <- <- <-.
        destruct (Hbr _ _ _ Hb1 H2) as [G1 G2]. split; [|exact G2]. exact (proj1 (Hplain _ _ _ _ G1 H3)).
      * exact (Hplain _ _ _ _ Hb1 H).
Qed.
