(** Reading and applying arbitrary bytes: no panics without overflow checks, no endless loops, bounded output. *)
From Verif Require Import Base Spec MCommon MWriter MReader MDecoder SpecApi PBase PStream PSection PWriter PDecoder PPatch PMerge PMerge4.
Ltac Zify.zify_post_hook ::= idtac.
Arguments Z.add : simpl never.
Arguments Z.sub : simpl never.
Arguments Z.mul : simpl never.
Arguments Z.pow : simpl never.

(** The computation ends with a result or an error. *)
Definition fine {A} (r : res A) : Prop := r <> Panic /\ r <> Diverge.
Lemma fine_ok {A} (a : A) : fine (Ok a). Proof. split; discriminate. Qed.
Lemma fine_err {A} e : fine (@Err A e). Proof. split; discriminate. Qed.
Lemma fine_bind {A B} (a : res A) (f : A -> res B) : fine a -> (forall x, a = Ok x -> fine (f x)) -> fine (bind a f).
Proof. intros [H1 H2] Hf. destruct a as [x|e| |]; cbn [bind]; [now apply Hf|apply fine_err|congruence..]. Qed.
Lemma fine_cases {A} (r : res A) : fine r -> (exists x, r = Ok x) \/ exists e, r = Err e.
Proof. intros [H1 H2]. destruct r; [left; eauto|right; eauto|congruence..]. Qed.
Create HintDb fine.
#[export] Hint Resolve fine_ok fine_err : fine.
Ltac fine1 :=
  match goal with
  | |- fine (bind _ _) => apply fine_bind; [|let x := fresh "x" in let E := fresh "E" in intros x E]
  | |- fine (let '(_, _) := ?x in _) => destruct x
  | |- fine (match ?x with _ => _ end) => destruct x
  | |- _ => progress cbv zeta
  | |- _ => solve [auto with fine nocore]
  end.
Ltac finet := repeat fine1.

Lemma arith_fine w v : fine (arith Release w v). Proof. unfold arith. finet. Qed.
Lemma u8_fine bs : fine (read_u8 bs). Proof. unfold read_u8. finet. Qed.
Lemma u16_fine bs : fine (read_u16 bs). Proof. unfold read_u16. finet. Qed.
Lemma exact_fine n bs : fine (read_exact n bs). Proof. unfold read_exact. finet. Qed.
#[export] Hint Resolve arith_fine u8_fine u16_fine exact_fine : fine.
Lemma uvar_fine bs : forall r s, fine (read_u_varint_loop Release r s bs).
Proof. induction bs as [|b bs IH]; intros r s; cbn [read_u_varint_loop]; unfold shl_u64; finet; apply IH. Qed.
Lemma uvarint_fine bs : fine (read_u_varint Release bs). Proof. apply uvar_fine. Qed.
#[export] Hint Resolve uvarint_fine : fine.
Lemma ivar_fine bs : fine (read_i_varint Release bs). Proof. unfold read_i_varint. finet. Qed.
Lemma diffu_fine c i : fine (diff_addresses_to_u64 Release c i). Proof. unfold diff_addresses_to_u64. finet. Qed.
#[export] Hint Resolve ivar_fine diffu_fine : fine.
Lemma header_fine bs : fine (read_section_header Release bs). Proof. unfold read_section_header. finet. Qed.
Lemma op_fine d o i bs : fine (read_op Release d o i bs). Proof. unfold read_op, read_op_byte. finet. Qed.
#[export] Hint Resolve header_fine op_fine : fine.
Lemma ops_loop_fine f : forall k n d o cs na bs, (length bs < k)%nat -> fine (read_ops_loop k Release f n d o cs na bs).
Proof.
  induction k as [|k IH]; intros n d o cs na bs Hk; [lia|]. cbn [read_ops_loop].
  destruct (n <=? 0); [apply fine_ok|]. apply fine_bind; [apply op_fine|]. intros [[[x d'] o'] r] E. apply read_op_consumes in E.
  apply fine_bind; [apply arith_fine|]. intros cs' _. apply fine_bind; [finet|]. intros na' _.
  apply fine_bind; [apply IH; lia|]. intros [[[ops c] n'] r'] _. apply fine_ok.
Qed.
Lemma fill_fine ops : forall bs, fine (fill_adds ops bs).
Proof. induction ops as [|[z|b n|s a n] ops IH]; intro bs; cbn [fill_adds]; finet. Qed.
#[export] Hint Resolve fill_fine : fine.
Lemma ops_fine h bs : fine (read_ops_no_comp Release h bs).
Proof.
  unfold read_ops_no_comp. apply fine_bind; [apply ops_loop_fine; lia|]. intros [[[ops c] n'] r'] _. finet.
Qed.
#[export] Hint Resolve ops_fine : fine.
Lemma section_fine bs : fine (read_section Release bs). Proof. unfold read_section. finet. Qed.

(** Application without dictionary panics only at a dictionary copy. *)
Lemma read_at_fine l a n : fine (read_at l a n). Proof. unfold read_at. finet. Qed.
Lemma apply_ops_loop_some d ops : forall s pos, fine (snd (apply_ops_loop (Some d) ops s pos)).
Proof.
  induction ops as [|[z|b n|[] a n] ops IH]; intros s pos; cbn [apply_ops_loop snd]; [apply fine_ok|apply IH..| |].
  - pose proof (read_at_fine d a n) as [H1 H2]. destruct (read_at d a n); [apply IH|apply fine_err|congruence..].
  - pose proof (read_at_fine (sbuf s) a n) as [H1 H2]. destruct (read_at (sbuf s) a n); [apply IH|apply fine_err|congruence..].
Qed.
Lemma apply_ops_loop_none ops : forall s pos, existsb is_dict_copy ops = false -> fine (snd (apply_ops_loop None ops s pos)).
Proof.
  induction ops as [|[z|b n|[] a n] ops IH]; intros s pos H; cbn [apply_ops_loop snd existsb is_dict_copy orb] in *; [apply fine_ok|now apply IH..|discriminate|].
  pose proof (read_at_fine (sbuf s) a n) as [H1 H2]. destruct (read_at (sbuf s) a n); [now apply IH|apply fine_err|congruence..].
Qed.

(** The loop over sections, given that reading takes at least one byte and does not loop. *)
Lemma apply_loop_panic next dict : (forall bs ops h r, next bs = Ok (ops, h, r) -> (length r < length bs)%nat) -> (forall bs, next bs <> Diverge) ->
  forall k bs s pos, (length bs < k)%nat ->
  snd (apply_loop next k dict bs s pos) <> Diverge /\
  (snd (apply_loop next k dict bs s pos) = Panic ->
   exists l r, sections_read next bs l r /\ (next r = Panic \/ exists ops h r', next r = Ok (ops, h, r') /\ dict = None /\ existsb is_dict_copy ops = true)).
Proof.
  intros Hs Hd. induction k as [|k IH]; intros bs s pos Hk; [lia|]. cbn [apply_loop].
  pose proof (Hd bs) as Hdb. destruct (next bs) as [[[ops h] rest]|e| |] eqn:E; cbn [snd]; [|split; discriminate| |congruence].
  - apply Hs in E as Hl. unfold apply_ops.
    assert (Ha : fine (snd (apply_ops_loop dict ops (sink_seek s pos) pos)) \/ (dict = None /\ existsb is_dict_copy ops = true)).
    { destruct dict as [d|]; [left; apply apply_ops_loop_some|]. destruct (existsb is_dict_copy ops) eqn:Ed; [now right|left; now apply apply_ops_loop_none]. }
    pose proof (apply_ops_loop_not_diverge dict ops (sink_seek s pos) pos) as Hdd.
    destruct (apply_ops_loop dict ops (sink_seek s pos) pos) as [[s' pos'] [u|e| |]]; cbn [snd] in *; [|split; discriminate| |congruence].
    + destruct (h_more h) eqn:Em; [|split; discriminate]. destruct (IH rest s' pos' ltac:(lia)) as [H1 H2]. split; [exact H1|].
      intro Hp. destruct (H2 Hp) as (l & r & Hr & Hc). exists (ops :: l), r. split; [now apply (sr_cons next bs ops h rest)|exact Hc].
    + split; [discriminate|]. intros _. exists [], bs. split; [constructor|]. right. exists ops, h, rest. destruct Ha as [[Ha _]|Ha]; [congruence|]. auto.
  - split; [discriminate|]. intros _. exists [], bs. split; [constructor|now left].
Qed.

(** ** Output size *)
(** The contents of the sink after writing. *)
Lemma sink_write_len s bs : 0 <= spos s -> zlen (sbuf (sink_write s bs)) = Z.max (zlen (sbuf s)) (spos s + zlen bs).
Proof.
  intro H. unfold sink_write. cbn [sbuf]. rewrite !zlen_app. unfold take, drop, rep, zlen. rewrite !firstn_length, !skipn_length, !app_length, !repeat_length. lia.
Qed.
Lemma sink_write_pos s bs : spos (sink_write s bs) = spos s + zlen bs. Proof. reflexivity. Qed.
Lemma read_at_len l a n b : 0 <= n -> read_at l a n = Ok b -> zlen b = n.
Proof.
  intros Hn H. unfold read_at, read_exact in H. destruct (n <=? zlen (drop a l)) eqn:E; [|discriminate]. injection H as <-.
  unfold take, zlen in *. rewrite firstn_length. lia.
Qed.
Lemma apply_ops_loop_len dict ops : forall s pos s' pos' r, Forall op_nonneg ops -> 0 <= pos -> spos s = pos -> apply_ops_loop dict ops s pos = (s', pos', r) ->
  pos <= pos' <= pos + ops_len ops /\ zlen (sbuf s') <= Z.max (zlen (sbuf s)) (pos + ops_len ops).
Proof.
  induction ops as [|o ops IH]; intros s pos s' pos' r Hn Hp Hs H; cbn [apply_ops_loop] in H.
  - injection H as <- <- _. unfold ops_len. cbn [fold_right]. lia.
  - inversion Hn as [|? ? Ho Hn']; subst. unfold ops_len. cbn [fold_right]. fold (ops_len ops).
    assert (Hol : 0 <= ops_len ops).
    { clear -Hn'. induction Hn' as [|x l Hx Hl IHl]; [unfold ops_len; cbn; lia|]. unfold ops_len. cbn [fold_right]. fold (ops_len l).
      destruct x as [z|b n|c a n]; cbn [op_len]; [pose proof (Zle_0_nat (length z)); unfold zlen|cbn in Hx|cbn in Hx]; lia. }
    assert (G : forall s0 b, spos s0 = spos s -> sbuf s0 = sbuf s -> zlen b = op_len o -> apply_ops_loop dict ops (sink_write s0 b) (spos s + op_len o) = (s', pos', r) ->
      spos s <= pos' <= spos s + (op_len o + ops_len ops) /\ zlen (sbuf s') <= Z.max (zlen (sbuf s)) (spos s + (op_len o + ops_len ops))).
    { intros s0 b E1 E2 E3 E4. pose proof (Zle_0_nat (length b)) as Hb. change (0 <= zlen b) in Hb. apply IH in E4; [|assumption|lia|rewrite sink_write_pos; lia].
      rewrite sink_write_len, E2 in E4 by lia. lia. }
    assert (H0 : 0 <= op_len o) by (destruct o; cbn in *; unfold zlen in *; lia).
    destruct o as [z|b n|[] a n]; cbn [op_len] in *.
    + apply (G s z); auto.
    + apply (G s (rep b n)); auto. unfold rep, zlen. rewrite repeat_length. cbn in Ho. lia.
    + destruct dict as [d|]; [|injection H as <- <- _; lia].
      destruct (read_at d a n) as [b|e| |] eqn:E; [|injection H as <- <- _; lia..]. apply read_at_len in E; [|assumption]. apply (G s b); auto.
    + destruct (read_at (sbuf s) a n) as [b|e| |] eqn:E; [|injection H as <- <- _; lia..]. apply read_at_len in E; [|assumption]. apply (G (sink_seek s (spos s)) b); auto.
Qed.
Lemma apply_loop_len next B dict : 0 <= B ->
  (forall bs ops h r, Forall is_byte bs -> next bs = Ok (ops, h, r) -> Forall is_byte r /\ Forall op_nonneg ops /\ ops_len ops + B * zlen r <= B * zlen bs) ->
  forall k bs s pos, Forall is_byte bs -> 0 <= pos ->
  let '(s', r) := apply_loop next k dict bs s pos in
  zlen (sbuf s') <= Z.max (zlen (sbuf s)) (pos + B * (zlen bs - match r with Ok rest => zlen rest | _ => 0 end)) /\
  match r with Ok rest => zlen rest <= zlen bs \/ B = 0 | _ => True end.
Proof.
  intros HB Hn. induction k as [|k IH]; intros bs s pos Hb Hp; cbn [apply_loop].
  - assert (0 <= zlen bs) by (unfold zlen; lia). split; [nia|exact I].
  - assert (H0 : 0 <= zlen bs) by (unfold zlen; lia).
    destruct (next bs) as [[[ops h] rest]|e| |] eqn:E; [|split; [nia|exact I]..].
    destruct (Hn _ _ _ _ Hb E) as (Hbr & Hno & Hl). unfold apply_ops.
    destruct (apply_ops_loop dict ops (sink_seek s pos) pos) as [[s' pos'] r] eqn:Ea.
    apply apply_ops_loop_len in Ea; [|assumption|assumption|reflexivity]. cbn [sbuf sink_seek] in Ea.
    assert (H1 : 0 <= zlen rest) by (unfold zlen; lia). assert (H2 : 0 <= B * zlen rest) by nia.
    destruct r as [u|e| |]; [|split; [nia|exact I]..].
    destruct (h_more h).
    + specialize (IH rest s' pos' Hbr ltac:(lia)). destruct (apply_loop next k dict rest s' pos') as [s2 r2]. destruct IH as [IH1 IH2]. split.
      * destruct r2 as [r2|e| |]; nia.
      * destruct r2 as [r2|e| |]; try exact I. destruct (Z.eq_dec B 0); [now right|left]. destruct IH2 as [?|?]; [|contradiction].
        assert (0 <= ops_len ops) by lia. nia.
    + split; [nia|]. destruct (Z.eq_dec B 0); [now right|left]. assert (0 <= ops_len ops) by lia. nia.
Qed.

(** ** Number and size of the operations read *)
Lemma ops_loop_count m f : forall k n d o cs na bs ops c a r, read_ops_loop k m f n d o cs na bs = Ok (ops, c, a, r) -> (length ops + length r <= length bs)%nat.
Proof.
  induction k as [|k IH]; intros n d o cs na bs ops c a r H; cbn [read_ops_loop] in H; destruct (n <=? 0); try discriminate H.
  - injection H as <- <- <- <-. cbn. lia.
  - injection H as <- <- <- <-. cbn. lia.
  - apply bind_ok in H as ([[[x d'] o'] r1] & H1 & H). apply read_op_consumes in H1. apply bind_ok in H as (cs' & _ & H). apply bind_ok in H as (na' & _ & H).
    apply bind_ok in H as ([[[ops' c'] a'] r'] & H2 & H). injection H as <- <- <- <-. apply IH in H2. cbn [length]. lia.
Qed.
Lemma fill_count : forall ops bs ops' r, fill_adds ops bs = Ok (ops', r) -> (length ops' = length ops /\ length r <= length bs)%nat.
Proof.
  induction ops as [|o ops IH]; intros bs ops' r H; cbn [fill_adds] in H; [injection H as <- <-; auto|].
  destruct o as [z|b n|s a n].
  - apply bind_ok in H as ([b bs1] & H1 & H). apply bind_ok in H as ([ops1 r1] & H2 & H). injection H as <- <-. apply IH in H2.
    apply (streaming_shrink _ _ _ _ (streaming_exact (zlen z))) in H1. cbn [length]. lia.
  - apply bind_ok in H as ([ops1 r1] & H2 & H). injection H as <- <-. apply IH in H2. cbn [length]. lia.
  - apply bind_ok in H as ([ops1 r1] & H2 & H). injection H as <- <-. apply IH in H2. cbn [length]. lia.
Qed.
Lemma read_ops_count m h bs ops h' r : read_ops_no_comp m h bs = Ok (ops, h', r) -> (length ops + length r <= length bs)%nat.
Proof.
  unfold read_ops_no_comp. intro H. apply bind_ok in H as ([[[ops1 c] a] r1] & H1 & H). apply ops_loop_count in H1. destruct (negb (c =? h_osize h)); [discriminate|].
  destruct (h_format h); [injection H as <- <- <-; lia|]. apply bind_ok in H as ([ops2 r2] & H2 & H). injection H as <- <- <-. apply fill_count in H2. lia.
Qed.
Lemma section_count m bs ops h r : read_section m bs = Ok (ops, h, r) -> (length ops + length r < length bs)%nat.
Proof.
  unfold read_section. intro H. apply bind_ok in H as ([h0 bs1] & H1 & H). apply read_ops_count in H.
  destruct (streaming_shrink _ _ _ _ (streaming_header m) H1) as [_ Hl]. specialize (Hl eq_refl). lia.
Qed.
Lemma ops_len_bound ops : Forall op_ok ops -> 0 <= ops_len ops <= 65535 * zlen ops.
Proof.
  induction 1 as [|x l Hx Hl IH]; [unfold ops_len, zlen; cbn; lia|]. unfold ops_len. cbn [fold_right]. fold (ops_len l). rewrite zlen_cons.
  destruct Hx as [Ht Hg]. destruct x as [z|b n|s a n]; cbn [op_len op_typed op_legal] in *; [assert (0 <= zlen z) by (unfold zlen; lia)|..]; lia.
Qed.

(** The decompressors expand by at most the factor [K]. *)
Definition next_bound (K : Z) : Z := 65535 * Z.max 65535 K.
Lemma next_section_len m cd K : codecs_bytes cd -> 1 <= K ->
  (forall bs dec rest, Forall is_byte bs -> zstd_dec cd bs = Ok (dec, rest) -> zlen dec + K * zlen rest <= K * zlen bs) ->
  (forall bs dec rest, Forall is_byte bs -> brotli_dec cd bs = Ok (dec, rest) -> zlen dec + K * zlen rest <= K * zlen bs) ->
  forall bs ops h r, Forall is_byte bs -> next_section m cd bs = Ok (ops, h, r) -> Forall is_byte r /\ Forall op_nonneg ops /\ ops_len ops + next_bound K * zlen r <= next_bound K * zlen bs.
Proof.
  intros Hc HK Hz Hbr bs ops h r Hb H. destruct (next_section_typed m cd Hc bs ops h r Hb H) as [Ho Hr]. split; [exact Hr|]. split; [now apply ops_ok_nonneg|].
  pose proof (ops_len_bound ops Ho) as [Hol Hol'].
  unfold next_section in H. apply bind_ok in H as ([h0 bs1] & H1 & H).
  destruct (read_header_ok _ _ _ _ Hb H1) as (_ & _ & _ & _ & Hb1 & _).
  destruct (streaming_shrink _ _ _ _ (streaming_header m) H1) as [Hl _].
  assert (Hl' : zlen bs1 <= zlen bs) by (unfold zlen; lia).
  assert (HM : 65535 <= Z.max 65535 K /\ K <= Z.max 65535 K) by lia. unfold next_bound. set (M := Z.max 65535 K) in *. clearbody M.
  assert (Gd : forall k n, 1 <= k <= M -> zlen ops <= n -> n + k * zlen r <= k * zlen bs1 -> ops_len ops + 65535 * M * zlen r <= 65535 * M * zlen bs).
  { intros k n Hk E1 E2. assert (0 <= zlen ops) by (unfold zlen; lia). assert (zlen r <= zlen bs1) by nia.
    assert (n + M * zlen r <= M * zlen bs1) by nia. assert (M * zlen bs1 <= M * zlen bs) by nia. lia. }
  assert (Gz : forall l : list Z, (length ops + 0 <= length l)%nat -> zlen ops <= zlen l) by (intros; unfold zlen; lia).
  destruct (h_comp h0 =? 1).
  - pose proof (apply_loop_len (read_section m) 65535 None ltac:(lia)) as L. unfold apply_no_sec_comp in H.
    match type of L with ?P -> _ => assert (HP : P) end.
    { intros b o' h' r' Hb' E. destruct (read_section_typed m b o' h' r' Hb' E) as [Ho' Hr']. split; [exact Hr'|]. split; [now apply ops_ok_nonneg|].
      apply section_count in E. pose proof (ops_len_bound o' Ho'). unfold zlen in *. lia. }
    specialize (L HP (S (length bs1)) bs1 (mkSink [] 0) 0 Hb1 ltac:(lia)).
    destruct (apply_loop (read_section m) (S (length bs1)) None bs1 (mkSink [] 0) 0) as [s [rest|e| |]]; try discriminate H.
    apply bind_ok in H as ([[ops2 h2] r2] & H2 & H). injection H as <- <- <-. apply read_ops_count in H2. destruct L as [L1 L2]. cbn [sbuf] in L1. rewrite (@zlen_nil Z) in L1.
    destruct L2 as [L2|L2]; [|lia]. apply (Gd 65535 (zlen (sbuf s))); [lia|apply Gz; lia|lia].
  - destruct (h_comp h0 =? 2); [|destruct (h_comp h0 =? 3)].
    + apply bind_ok in H as ([dec rest] & H2 & H). apply bind_ok in H as ([[ops2 h2] r2] & H3 & H). injection H as <- <- <-. apply Hz in H2; [|exact Hb1].
      apply read_ops_count in H3. apply (Gd K (zlen dec)); [lia|apply Gz; lia|exact H2].
    + apply bind_ok in H as ([dec rest] & H2 & H). apply bind_ok in H as ([[ops2 h2] r2] & H3 & H). injection H as <- <- <-. apply Hbr in H2; [|exact Hb1].
      apply read_ops_count in H3. apply (Gd K (zlen dec)); [lia|apply Gz; lia|exact H2].
    + apply read_ops_count in H. apply (Gd 1 (zlen ops)); [lia|lia|]. unfold zlen. lia.
Qed.
