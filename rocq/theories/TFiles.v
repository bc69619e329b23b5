(** encode and apply_patch over any files. Property C96. *)
From Verif Require Import Base Spec SpecEnc MCommon MWriter MReader MDecoder MOpMaker MTrgtMatcher MSrcMatcher MEncInner MEncode MStream MFiles SpecApi SpecMerge PBase PCommon PStream PSection PWriter PDecoder PPatch POpMaker PEncInner PEncode PRobust PMerge4 TEncode TTrunc TStream.
Ltac Zify.zify_post_hook ::= idtac.
Arguments Z.add : simpl never.
Arguments Z.sub : simpl never.
Arguments Z.mul : simpl never.
Arguments Z.pow : simpl never.

(** ** Specification *)
(** [V s c p]: the file holds the bytes [c] and stands at [p]. Reading gives, in order, the bytes from there on ([delivers], TStream.v: any number of them at a time, with interruptions); seeking
    below [lim] or within the contents works. (An operating system takes offsets below 2^63 only, a Cursor all.) *)
Definition keeps {St} (K : seekable St) (lim : Z) (V : St -> list Z -> Z -> Prop) : Prop :=
  (forall c, delivers (sk_reader K) (fun s l => exists p, 0 <= p /\ V s c p /\ l = drop p c)) /\
  forall s c p q, V s c p -> 0 <= q -> q < lim \/ q <= zlen c -> exists s', sk_seek K q s = Ok s' /\ V s' c q.
(** Writing inside or at the end of the contents takes at least one byte and puts what it takes there; or it is interrupted and has written nothing. *)
Definition stores {St} (F : file St) (lim : Z) (V : St -> list Z -> Z -> Prop) : Prop :=
  keeps (fi_seekable F) lim V /\
  forall s c p bs, V s c p -> 0 <= p <= zlen c -> bs <> [] ->
  match fi_write F bs s with
  | Put n s' => 1 <= n <= zlen bs /\ V s' (take p c ++ take n bs ++ drop (p + n) c) (p + n) /\ (fi_calls F (drop n bs) s' < fi_calls F bs s)%nat
  | PutAgain s' => V s' c p /\ (fi_calls F bs s' < fi_calls F bs s)%nat
  | PutFails _ => False
  end.
(** The source: none, or a file with the bytes of the dictionary. *)
Definition src_holds {St} (V : St -> list Z -> Z -> Prop) (src : option St) (dict : option (list Z)) : Prop :=
  match src, dict with Some s, Some d => exists q, 0 <= q /\ V s d q | None, None => True | _, _ => False end.
Definition addr_below (lim : Z) (o : op) : Prop := match o with Copy _ a _ => a < lim | _ => True end.
(** All operations of the sections that can be read from the patch have addresses below [lim]. *)
Definition addrs_below (lim : Z) (next : next_t) (patch : list Z) : Prop :=
  forall secs r ops h r', sections_read next patch secs r -> next r = Ok (ops, h, r') -> Forall (addr_below lim) ops.

(** ** Proof *)
Lemma f_exact {St} (R : reader St) V : delivers R V -> forall k n s l, V s l -> (rd_most R s < k)%nat -> 0 <= n ->
  exists s', f_exact_loop R k n s = (s', if n <=? zlen l then Ok (take n l) else Err EOF) /\ exists l', V s' l'.
Proof.
  intro HR. induction k as [|k IH]; intros n s l Hv Hk Hn; [lia|]. cbn [f_exact_loop]. pose proof (zlen_nonneg l). destruct (HR s l Hv) as [Hlm Hrd].
  destruct (Z.leb_spec n 0).
  - assert (n = 0) as -> by lia. destruct (Z.leb_spec 0 (zlen l)); [|lia]. exists s. split; [reflexivity|eauto].
  - specialize (Hrd n ltac:(lia)). destruct (rd_read R n s) as [bs s'|s'|e].
    + destruct Hrd as (l' & -> & Hb & He & Hv' & Hm). destruct bs as [|x bs].
      * specialize (He eq_refl). cbn [app] in *. subst l'. change (zlen (@nil Z)) with 0 in *. destruct (Z.leb_spec n 0); [lia|]. eauto.
      * set (b := x :: bs) in *. assert (Hc : 1 <= zlen b) by (unfold b; rewrite zlen_cons; pose proof (zlen_nonneg bs); lia). rewrite zlen_app in *.
        assert (Hc' : (0 < length b)%nat) by (unfold b; cbn [length]; lia).
        destruct (IH (n - zlen b) s' l' Hv' ltac:(lia) ltac:(lia)) as (s2 & E & Hv2). cbv iota. rewrite E. exists s2. split; [|exact Hv2].
        destruct (Z.leb_spec (n - zlen b) (zlen l')) as [A|A]; destruct (Z.leb_spec n (zlen b + zlen l')) as [B|B]; try lia; cbn [bind]; [|reflexivity].
        rewrite take_app_r by lia. reflexivity.
    + destruct Hrd as [Hv' Hm]. apply IH; [exact Hv'|lia|lia].
    + contradiction.
Qed.
Lemma read_file {St} (K : seekable St) lim V s c p q n : keeps K lim V -> 0 <= p -> V s c p -> 0 <= q -> q < lim \/ q <= zlen c -> 0 <= n ->
  exists s1 s2, f_seek K q s = (s1, Ok tt) /\ f_read_exact (sk_reader K) n s1 = (s2, read_at c q n) /\ exists p', 0 <= p' /\ V s2 c p'.
Proof.
  intros [Hr Hk] Hp Hv Hq Hl Hn. destruct (Hk s c p q Hv Hq Hl) as (s1 & E & Hv1). unfold f_seek. rewrite E. exists s1.
  destruct (f_exact (sk_reader K) _ (Hr c) (S (rd_most (sk_reader K) s1)) n s1 (drop q c)) as (s2 & E2 & l' & p' & Hp' & Hv2 & _); [exists q; auto|lia|exact Hn|].
  exists s2. split; [reflexivity|]. unfold f_read_exact. rewrite E2. split; [|eauto]. unfold read_at, read_exact. destruct (n <=? zlen (drop q c)); reflexivity.
Qed.
Lemma write_file {St} (F : file St) lim V : stores F lim V -> forall k bs s c p, V s c p -> 0 <= p <= zlen c -> (fi_calls F bs s < k)%nat ->
  exists s', f_all_loop F k bs s = (s', Ok tt) /\ V s' (take p c ++ bs ++ drop (p + zlen bs) c) (p + zlen bs).
Proof.
  intros [_ HF]. induction k as [|k IH]; intros bs s c p Hv Hp Hk; [lia|]. destruct bs as [|x bs].
  - cbn [f_all_loop]. exists s. split; [reflexivity|]. change (zlen (@nil Z)) with 0. rewrite Z.add_0_r. cbn [app]. rewrite take_drop. exact Hv.
  - cbn [f_all_loop]. set (b := x :: bs) in *. specialize (HF s c p b Hv Hp ltac:(discriminate)). destruct (fi_write F b s) as [n s'|s'|e].
    + destruct HF as (Hn & Hv' & Hm). destruct (Z.leb_spec n 0); [lia|]. pose proof (zlen_nonneg (drop (p + n) c)).
      assert (Hlb : zlen (take n b) = n) by (rewrite zlen_take_min by lia; lia). assert (Hlc : zlen (take p c) = p) by (rewrite zlen_take_min by lia; lia).
      destruct (IH (drop n b) s' _ _ Hv') as (s2 & E & Hv2); [rewrite !zlen_app; lia|lia|]. exists s2. split; [exact E|].
      assert (Hdb : zlen (drop n b) = zlen b - n) by (rewrite zlen_drop by lia; lia). rewrite Hdb in Hv2. replace (p + n + (zlen b - n)) with (p + zlen b) in Hv2 by lia.
      replace (take p c ++ b ++ drop (p + zlen b) c) with (take (p + n) (take p c ++ take n b ++ drop (p + n) c) ++ drop n b ++ drop (p + zlen b) (take p c ++ take n b ++ drop (p + n) c)); [exact Hv2|].
      rewrite (app_assoc (take p c)). rewrite take_app by (rewrite zlen_app; lia). rewrite drop_app_r by (rewrite zlen_app; lia). rewrite zlen_app, Hlc, Hlb, drop_drop by lia.
      replace (p + n + (p + zlen b - (p + n))) with (p + zlen b) by lia. rewrite <- app_assoc. rewrite (app_assoc (take n b)), take_drop. reflexivity.
    + destruct HF as [Hv' Hm]. apply IH; [exact Hv'|exact Hp|lia].
    + contradiction.
Qed.
Lemma sink_write_in c p bs : 0 <= p <= zlen c -> sink_write (mkSink c p) bs = mkSink (take p c ++ bs ++ drop (p + zlen bs) c) (p + zlen bs).
Proof. intro H. unfold sink_write. cbn [spos sbuf]. replace (rep 0 (p - zlen c)) with (@nil Z); [now rewrite app_nil_r|]. symmetry. apply rep_0. lia. Qed.
Lemma write_in_len (c : list Z) p (bs : list Z) : 0 <= p <= zlen c -> p + zlen bs <= zlen (take p c ++ bs ++ drop (p + zlen bs) c).
Proof. intro H. rewrite !zlen_app, zlen_take_min by lia. pose proof (zlen_nonneg (drop (p + zlen bs) c)). lia. Qed.

Lemma f_ops_ok {Sd So} (D : seekable Sd) (F : file So) lim VD VO dict : keeps D lim VD -> stores F lim VO ->
  forall ops src so c pos, Forall op_nonneg ops -> Forall (addr_below lim) ops -> VO so c pos -> 0 <= pos <= zlen c -> src_holds VD src dict ->
  let '(s', pos', r) := apply_ops_loop dict ops (mkSink c pos) pos in
  exists src' so', f_ops D F src ops so pos = (src', so', pos', r) /\ src_holds VD src' dict /\ (exists q, 0 <= q /\ VO so' (sbuf s') q) /\
    (r = Ok tt -> VO so' (sbuf s') pos' /\ 0 <= pos' <= zlen (sbuf s')).
Proof.
  intros HD HF. induction ops as [|o ops IH]; intros src so c pos Hn Ha Hv Hp Hs.
  - cbn [apply_ops_loop f_ops sbuf]. exists src, so. repeat (split; [solve [auto]|]). split; [exists pos; split; [lia|exact Hv]|]. auto.
  - inversion Hn as [|? ? Hn1 Hn2]; subst. inversion Ha as [|? ? Ha1 Ha2]; subst. clear Hn Ha.
    assert (HW : forall src (b : list Z), src_holds VD src dict -> forall so, VO so c pos ->
      let '(s', pos', r) := apply_ops_loop dict ops (sink_write (mkSink c pos) b) (pos + zlen b) in
      exists src' so', orelse (f_write_all F b so) (fun s r => (src, s, pos, r)) (fun s _ => f_ops D F src ops s (pos + zlen b)) = (src', so', pos', r) /\ src_holds VD src' dict /\ (exists q, 0 <= q /\ VO so' (sbuf s') q) /\
        (r = Ok tt -> VO so' (sbuf s') pos' /\ 0 <= pos' <= zlen (sbuf s'))).
    { intros src1 b Hs1 so1 Hv1. destruct (write_file F lim VO HF (S (fi_calls F b so1)) b so1 c pos Hv1 Hp ltac:(lia)) as (s2 & E & Hv2). unfold f_write_all. rewrite E. cbn [orelse]. rewrite sink_write_in by exact Hp.
      pose proof (zlen_nonneg b). apply IH; [exact Hn2|exact Ha2|exact Hv2|pose proof (write_in_len c pos b Hp); lia|exact Hs1]. }
    destruct o as [bs|x n|[|] a n]; cbn [apply_ops_loop f_ops]; cbn [op_nonneg addr_below] in Hn1, Ha1.
    + exact (HW src bs Hs so Hv).
    + replace (pos + n) with (pos + zlen (rep x n)) by (rewrite zlen_rep; lia). exact (HW src (rep x n) Hs so Hv).
    + destruct src as [d|], dict as [dd|]; cbn [src_holds] in Hs; try contradiction.
      2: { exists None, so. split; [reflexivity|]. split; [exact I|]. split; [exists pos; split; [lia|exact Hv]|discriminate]. }
      destruct Hs as (q & Hq & Hd). destruct (read_file D lim VD d dd q a n HD Hq Hd ltac:(lia) (or_introl Ha1) ltac:(lia)) as (s1 & s2 & -> & E & q' & Hq' & Hd'). cbn [orelse]. rewrite E.
      assert (Hs2 : src_holds VD (Some s2) (Some dd)) by (exists q'; auto).
      destruct (read_at dd a n) as [b|e| |] eqn:Er; cbn [orelse].
      * assert (zlen b = n) by (eapply read_at_len; [|exact Er]; lia). replace (pos + n) with (pos + zlen b) by lia. exact (HW (Some s2) b Hs2 so Hv).
      * exists (Some s2), so. split; [reflexivity|]. split; [exact Hs2|]. split; [exists pos; split; [lia|exact Hv]|discriminate].
      * exists (Some s2), so. split; [reflexivity|]. split; [exact Hs2|]. split; [exists pos; split; [lia|exact Hv]|discriminate].
      * exists (Some s2), so. split; [reflexivity|]. split; [exact Hs2|]. split; [exists pos; split; [lia|exact Hv]|discriminate].
    + destruct (read_file (fi_seekable F) lim VO so c pos a n (proj1 HF) ltac:(lia) Hv ltac:(lia) (or_introl Ha1) ltac:(lia)) as (s1 & s2 & -> & E & q' & Hq' & Hv'). cbn [orelse sbuf]. rewrite E.
      destruct (read_at c a n) as [b|e| |] eqn:Er; cbn [orelse].
      * assert (zlen b = n) by (eapply read_at_len; [|exact Er]; lia). replace (pos + n) with (pos + zlen b) by lia.
        destruct (proj2 (proj1 HF) s2 c q' pos Hv' ltac:(lia) ltac:(lia)) as (s3 & E3 & Hv3). unfold f_seek. rewrite E3. cbn [orelse]. change (sink_seek (mkSink c pos) pos) with (mkSink c pos).
        exact (HW src b Hs s3 Hv3).
      * exists src, s2. split; [reflexivity|]. split; [exact Hs|]. split; [eauto|discriminate].
      * exists src, s2. split; [reflexivity|]. split; [exact Hs|]. split; [eauto|discriminate].
      * exists src, s2. split; [reflexivity|]. split; [exact Hs|]. split; [eauto|discriminate].
Qed.
Lemma f_loop_ok {Sb Sd So} (B : reader Sb) (D : seekable Sd) (F : file So) lim W VD VO dict m xd next : keeps D lim VD -> stores F lim VO -> gsim W next (g_next_section B m xd) ->
  next_typed_ok next -> (forall bs ops h r, next bs = Ok (ops, h, r) -> (length r < length bs)%nat) ->
  forall k k' src b l so c q pos, W b l -> (length l < k)%nat -> (length l < k')%nat -> Forall is_byte l -> addrs_below lim next l -> VO so c q -> 0 <= q -> 0 <= pos <= zlen c -> src_holds VD src dict ->
  forall p0, let '(s', r) := apply_loop next k dict l (mkSink c p0) pos in
  exists src' so', f_patch_loop B D F m xd k' src b so pos = (src', so', do _ <- r; Ok tt) /\ src_holds VD src' dict /\ (exists q, 0 <= q /\ VO so' (sbuf s') q).
Proof.
  intros HD HF Hn Hty Hsh. induction k as [|k IH]; intros k' src b l so c q pos Hw Hk Hk' Hb Ha Hv Hq Hp Hs p0; [lia|]. destruct k' as [|k']; [lia|]. cbn [apply_loop f_patch_loop].
  pose proof (Hn b l Hw) as H. destruct (next l) as [[[ops h] r]|e| |] eqn:E;
    try (rewrite H; exists src, so; split; [reflexivity|]; split; [exact Hs|]; exists q; split; [exact Hq|exact Hv]).
  destruct H as (b1 & -> & Hw1). destruct (Hty _ _ _ _ Hb E) as [Hok Hbr]. pose proof (Hsh _ _ _ _ E) as Hlt.
  destruct (proj2 (proj1 HF) so c q pos Hv ltac:(lia) ltac:(lia)) as (so1 & Es & Hv1). unfold f_apply_ops, apply_ops, f_seek. rewrite Es. cbn [orelse]. unfold sink_seek. cbn [sbuf].
  pose proof (f_ops_ok D F lim VD VO dict HD HF ops src so1 c pos (ops_ok_nonneg _ Hok) (Ha [] l ops h r (sr_nil _ _) E) Hv1 Hp Hs) as L.
  destruct (apply_ops_loop dict ops (mkSink c pos) pos) as [[s' pos'] ro]. destruct L as (src' & so' & -> & Hs' & (q' & Hq' & Hvq) & Hok').
  destruct ro as [[]|e| |]; cbv iota; try (exists src', so'; split; [reflexivity|]; split; [exact Hs'|eauto]).
  destruct (Hok' eq_refl) as [Hv' Hp']. destruct (h_more h) eqn:Em; [|exists src', so'; split; [reflexivity|]; split; [exact Hs'|eauto]].
  destruct s' as [c' p']. cbn [sbuf] in *. apply IH with pos'; try assumption; [lia|lia| |lia].
  intros secs r1 o1 h1 r2 Hsr En. eapply Ha; [|exact En]. eapply sr_cons; eassumption.
Qed.
(** C96. It makes no difference how the patch, the source and the sink cut their reads and writes: apply_patch has the same outcome as on plain bytes, and the sink holds the same bytes, after a
    success and after a failure. The source still holds its bytes. Any sink contents, position of source and sink. *)
Theorem C96_any_files : forall Sp Sd So (P : reader Sp) (D : seekable Sd) (F : file So) VP VD VO lim m cd xd patch bytes src dict sink old q,
  delivers P VP -> keeps D lim VD -> stores F lim VO -> codecs_bytes cd -> codecs_shrink cd -> ext_reads VP cd xd ->
  VP patch bytes -> src_holds VD src dict -> VO sink old q -> 0 <= q -> Forall is_byte bytes -> addrs_below lim (next_section m cd) bytes ->
  let '(s', r) := apply_patch m cd bytes dict (mkSink old q) in
  exists src' sink', f_apply_patch P D F m xd patch src sink = (src', sink', r) /\ src_holds VD src' dict /\ exists q', VO sink' (sbuf s') q'.
Proof.
  intros Sp Sd So P D F VP VD VO lim m cd xd patch bytes src dict sink old q HP HD HF Hcb Hcs Hx Hv Hs Ho Hq Hb Ha. unfold apply_patch, f_apply_patch.
  pose proof (buffered_delivers P VP HP) as HB. set (B := buffered P) in *. set (W := fun (b : list Z * Sp) l => exists l', l = fst b ++ l' /\ VP (snd b) l') in *.
  assert (Hw : W ([], patch) bytes) by (exists bytes; auto). pose proof (zlen_nonneg old).
  pose proof (f_loop_ok B D F lim W VD VO dict m xd (next_section m cd) HD HF (g_next P VP m cd xd HP Hx) (next_section_typed m cd Hcb) (next_section_shrink m cd Hcs)
    (S (length bytes)) (S (rd_most B ([], patch))) src ([], patch) bytes sink old q 0 Hw ltac:(lia) (most_len B W HB _ _ Hw) Hb Ha Ho Hq ltac:(lia) Hs q) as L.
  destruct (apply_loop (next_section m cd) (S (length bytes)) dict bytes (mkSink old q) 0) as [s' r]. destruct L as (src' & so' & E & Hs' & q' & _ & Hq'). exists src', so'. split; [exact E|]. split; [exact Hs'|eauto].
Qed.
(** With files that take every 64-bit offset (as a Cursor does) nothing is asked of the patch. *)
Lemma addrs_u64 m cd bytes : codecs_bytes cd -> Forall is_byte bytes -> addrs_below (2 ^ 64) (next_section m cd) bytes.
Proof.
  intros Hc Hb secs r ops h r' Hsr E. destruct (sections_read_bytes _ _ _ _ (next_section_typed m cd Hc) Hb Hsr) as [_ Hr]. destruct (next_section_typed m cd Hc _ _ _ _ Hr E) as [Hok _].
  eapply Forall_impl; [|exact Hok]. intros [bs|x n|c a n] [Ht _]; cbn [op_typed addr_below] in *; [exact I..|lia].
Qed.
(** ** encode *)
Lemma to_end {St} (R : reader St) V ask : delivers R V -> (forall have, 0 < ask have) -> forall k have s l, V s l -> (rd_most R s < k)%nat -> snd (f_to_end R ask k have s) = Ok (have ++ l).
Proof.
  intros HR Hask. induction k as [|k IH]; intros have s l Hv Hk; [lia|]. cbn [f_to_end]. destruct (HR s l Hv) as [_ Hrd]. specialize (Hrd (ask have) (Hask have)).
  destruct (rd_read R (ask have) s) as [bs s'|s'|e].
  - destruct Hrd as (l' & -> & _ & He & Hv' & Hm). destruct bs as [|x bs]; [rewrite (He eq_refl), app_nil_r; reflexivity|]. cbv iota. rewrite app_assoc. apply IH; [exact Hv'|cbn [length] in Hm; lia].
  - destruct Hrd as [Hv' Hm]. apply IH; [exact Hv'|lia].
  - contradiction.
Qed.
(** The patch depends on the bytes that the readers give, not on how they give them, nor on the sizes of the requests. *)
Theorem C96_encode_any_readers : forall Sd St (RD : reader Sd) (RT : reader St) VD VT ask m cd c d dict t trgt, delivers RD VD -> delivers RT VT -> (forall have, 0 < ask have) -> VD d dict -> VT t trgt ->
  f_encode RD RT ask m cd c (Some d) t = encode m cd c (Some dict) trgt /\ f_encode RD RT ask m cd c None t = encode m cd c None trgt.
Proof.
  intros Sd St RD RT VD VT ask m cd c d dict t trgt HD HT Hask Hd Ht. unfold f_encode, encode, f_read_to_end.
  rewrite (to_end RD VD ask HD Hask (S (rd_most RD d)) [] d dict Hd (Nat.lt_succ_diag_r _)), (to_end RT VT ask HT Hask (S (rd_most RT t)) [] t trgt Ht (Nat.lt_succ_diag_r _)). split; reflexivity.
Qed.

(** The whole way with any files, also those of an operating system (offsets below 2^63): what encode makes from any readers, apply_patch turns back into the target, reading the patch from any
    reader, with any file as source and any file as sink. *)
Theorem C96_roundtrip_any_files : forall Sr St Sp Sd So (RD : reader Sr) (RT : reader St) (P : reader Sp) (D : seekable Sd) (F : file So) VRD VRT VP VD VO ask m m' cd xd c d t dict trgt b patch src sink old q,
  delivers RD VRD -> delivers RT VRT -> (forall have, 0 < ask have) -> VRD d dict -> VRT t trgt -> comp_lossless cd (cf_comp c) trgt -> codecs_bytes cd -> codecs_shrink cd ->
  Forall is_byte dict -> Forall is_byte trgt -> zlen trgt < 2 ^ 63 -> zlen dict < 2 ^ 63 ->
  f_encode RD RT ask m cd c (Some d) t = (b, Ok tt) ->
  delivers P VP -> keeps D (2 ^ 63) VD -> stores F (2 ^ 63) VO -> ext_reads VP cd xd -> VP patch b -> VD src dict 0 -> VO sink old q -> 0 <= q -> Forall is_byte b ->
  exists src' sink' q', f_apply_patch P D F m' xd patch (Some src) sink = (src', sink', Ok tt) /\ VO sink' (trgt ++ drop (zlen trgt) old) q'.
Proof.
  intros Sr St Sp Sd So RD RT P D F VRD VRT VP VD VO ask m m' cd xd c d t dict trgt b patch src sink old q HRD HRT Hask Hd Ht Hcl Hcb Hcs Hbd Hbt Hlt Hld Henc HP HD HF Hx Hv Hsrc Ho Hq Hbb.
  rewrite (proj1 (C96_encode_any_readers Sr St RD RT VRD VRT ask m cd c d dict t trgt HRD HRT Hask Hd Ht)) in Henc.
  assert (Ha : addrs_below (2 ^ 63) (next_section m' cd) b).
  { destruct (C34_encoder_respects_limits m m' cd c (Some dict) trgt b Hcl Hbt Hlt Hld Henc) as (secs & Hp & Hall & Hrun & Hlen). cbn [source_of] in Hrun.
    assert (Hg : Forall op_good (concat (map fst secs))). { apply Forall_concat, Forall_map. eapply Forall_impl; [|exact Hall]. intros s0 (H & _). exact H. }
    assert (G : forall ops out out', Forall op_good ops -> run_ops dict out ops = Some out' -> zlen out' < 2 ^ 63 -> Forall (addr_below (2 ^ 63)) ops).
    { clear - Hld. induction ops as [|o ops IH]; intros out out' Hg Hr Hl; [constructor|]. inversion Hg as [|? ? Hg1 Hg2]; subst. cbn [run_ops] in Hr.
      destruct (op_bytes dict out o) as [x|] eqn:E; [|discriminate]. constructor; [|eapply IH; eassumption].
      pose proof (run_ops_len dict ops (out ++ x) out' (ops_ok_nonneg _ (good_ok _ Hg2)) Hr) as Hrl. rewrite zlen_app in Hrl. pose proof (good_zlen _ Hg2). pose proof (zlen_nonneg x). pose proof (zlen_nonneg ops).
      destruct o as [bs|y n|cs a n]; [exact I..|]. cbn [addr_below]. destruct Hg1 as [_ Hg1]. cbn [op_len] in Hg1.
      cbn [op_bytes] in E. destruct cs; (destruct (in_range _ a n) eqn:Ei; [|discriminate]); unfold in_range in Ei; apply orb_prop in Ei as [Ei|Ei]; try lia; apply andb_prop in Ei as [_ Ei]; lia. }
    specialize (G _ _ _ Hg Hrun Hlt). clear - Hp G. intros l r ops h r' Hsr E. revert secs Hp G. induction Hsr as [bs|bs ops0 h0 r0 l r1 E0 Hm0 Hsr IH]; intros secs Hp G.
    - inversion Hp as [? o1 h1 r1 E1 Hm1|? o1 h1 r1 secs1 r2 E1 Hm1 Hp1]; subst; rewrite E in E1; injection E1 as ? ? ?; subst; cbn [map fst concat] in G; apply Forall_app in G as [G _]; exact G.
    - inversion Hp as [? o1 h1 r2 E1 Hm1|? o1 h1 r2 secs1 r3 E1 Hm1 Hp1]; subst; rewrite E0 in E1; injection E1 as ? ? ?; subst; [congruence|].
      cbn [map fst concat] in G. apply Forall_app in G as [_ G]. exact (IH E secs1 Hp1 G). }
  pose proof (C96_any_files Sp Sd So P D F VP VD VO (2 ^ 63) m' cd xd patch b (Some src) (Some dict) sink old q HP HD HF Hcb Hcs Hx Hv (ex_intro _ 0 (conj (Z.le_refl 0) Hsrc)) Ho Hq Hbb Ha) as L.
  destruct (C31_encode_apply_roundtrip m m' cd c (Some dict) trgt b Hcl Hbt Hlt Hld Henc [] old q) as (p' & E). rewrite app_nil_r in E. rewrite E in L. destruct L as (src' & sink' & Ef & _ & q' & Hq'). eauto 6.
Qed.

(** ** Instances *)
(** A file that is interrupted before every second call, gives one byte per read and takes one per write. *)
Definition crawl_at : seekable (bool * list Z * Z) := mkSeekable (mkReader
  (fun n s => match s with
    | (false, c, p) => Again (true, c, p)
    | (true, c, p) => match drop p c with [] => Got [] (true, c, p) | x :: _ => Got [x] (false, c, p + 1) end
    end)
  (fun s => let '(b, c, p) := s in 2 * length (drop p c) + (if b : bool then 0 else 1))%nat)
  (fun q s => let '(b, c, p) := s in Ok (b, c, q)).
Definition crawl : file (bool * list Z * Z) := mkFile crawl_at
  (fun bs s => match s with
    | (false, c, p) => PutAgain (true, c, p)
    | (true, c, p) => Put 1 (false, take p c ++ take 1 bs ++ drop (p + 1) c, p + 1)
    end)
  (fun bs s => let '(b, c, p) := s in 2 * length bs + (if b : bool then 0 else 1))%nat.
Definition crawl_holds (s : bool * list Z * Z) (c : list Z) (p : Z) : Prop := snd (fst s) = c /\ snd s = p.
Lemma crawl_keeps lim : keeps crawl_at lim crawl_holds.
Proof.
  split.
  - intros c [[b c'] p'] l (p & Hp & [Hc Hq] & ->). cbn [fst snd] in Hc, Hq. subst c' p'. cbn [crawl_at sk_reader rd_most rd_read]. split; [lia|]. intros n Hn. destruct b.
    + destruct (drop p c) as [|x l] eqn:E.
      * exists []. cbn [app length]. change (zlen (@nil Z)) with 0. repeat split; try lia. exists p. repeat split; auto. now rewrite E.
      * assert (El : drop (p + 1) c = l) by (replace (drop (p + 1) c) with (drop 1 (drop p c)) by (rewrite drop_drop by lia; reflexivity); rewrite E; reflexivity). exists l. rewrite El. cbn [app length]. change (zlen [x]) with 1.
        repeat split; try lia; [discriminate|]. exists (p + 1). repeat split; auto; lia.
    + split; [exists p; repeat split; auto|]. lia.
  - intros [[b c'] p'] c p q [Hc Hp] Hq _. cbn [fst snd] in Hc, Hp. subst. eexists. split; [reflexivity|split; reflexivity].
Qed.
Lemma crawl_stores lim : stores crawl lim crawl_holds.
Proof.
  split; [apply crawl_keeps|]. intros [[b c'] p'] c p bs [Hc Hp'] Hp Hne. cbn [fst snd] in Hc, Hp'. subst. cbn [crawl fi_write fi_calls]. destruct b.
  - destruct bs as [|x bs]; [contradiction|]. change (drop 1 (x :: bs)) with bs. change (take 1 (x :: bs)) with [x]. rewrite zlen_cons. pose proof (zlen_nonneg bs). cbn [length]. repeat split; lia.
  - split; [split; reflexivity|lia].
Qed.
Example C96_example : forall m, exists src' sink', f_apply_patch trickle crawl_at crawl m (fun _ _ => Err EOF) (false, c94_patch) (Some (true, ex_src, 7)) (false, [1; 2; 3], 2) = (src', sink', Ok tt) /\
  crawl_holds sink' (ex_trgt ++ drop (zlen ex_trgt) [1; 2; 3]) (zlen ex_trgt) /\ addrs_below (2 ^ 64) (next_section m no_codecs) c94_patch.
Proof.
  intro m. eexists _, _. split; [destruct m; vm_compute; reflexivity|]. split; [destruct m; split; vm_compute; reflexivity|].
  apply addrs_u64; [split; intros bs dec rest _ H; discriminate H|apply byteb_ok; reflexivity].
Qed.
(** A patch that fails in the middle: a copy behind the end of the source. *)
Example C96_failure_example : forall m, exists src' sink', f_apply_patch trickle crawl_at crawl m (fun _ _ => Err EOF) (false, [0; 2; 12; 130; 65; 66; 10; 200; 1]) (Some (true, [1; 2; 3; 4; 5], 7)) (false, [], 2) = (src', sink', Err EOF) /\
  crawl_holds sink' [65; 66] 2 /\ fst (apply_patch m no_codecs [0; 2; 12; 130; 65; 66; 10; 200; 1] (Some [1; 2; 3; 4; 5]) (mkSink [] 2)) = mkSink [65; 66] 2.
Proof. intro m. eexists _, _. split; [destruct m; vm_compute; reflexivity|]. split; [destruct m; split; vm_compute; reflexivity|]. destruct m; vm_compute; reflexivity. Qed.
Example C96_encode_example : forall m, exists b, f_encode trickle halves (fun have => 32 + zlen have) m no_codecs (ex_cfg Interleaved None) (Some (false, ex_src)) ex_trgt = (b, Ok tt) /\ Forall is_byte b /\
  encode m no_codecs (ex_cfg Interleaved None) (Some ex_src) ex_trgt = (b, Ok tt).
Proof. intro m. eexists. split; [destruct m; vm_compute; reflexivity|]. split; [destruct m; apply byteb_ok; vm_compute; reflexivity|]. destruct m; vm_compute; reflexivity. Qed.
Print Assumptions C96_any_files.
Print Assumptions C96_encode_any_readers.
Print Assumptions C96_roundtrip_any_files.
