(** The decoder over any source of bytes, and over streaming decompressors. Properties C94 and C95. *)
From Verif Require Import Base Spec SpecEnc MCommon MWriter MReader MDecoder MOpMaker MTrgtMatcher MSrcMatcher MEncInner MEncode MStream SpecApi SpecMerge SpecFmt PBase PCommon PStream PSection PWriter PDecoder PPatch POpMaker PEncInner PEncode PRobust PMerge4 TEncode TTrunc.
Ltac Zify.zify_post_hook ::= idtac.
Arguments Z.add : simpl never.
Arguments Z.sub : simpl never.
Arguments Z.mul : simpl never.
Arguments Z.pow : simpl never.

(** ** Specification *)
(** A reader in a state of [view s l] has the bytes [l] still to give, and gives them in order: a call returns some of them, at most as many as asked for, none only at the end; or it is
    interrupted and has given nothing. [delivers_to R V V']: this holds for a call in a state of [V], which then is one of [V'] (of [V] still, if interrupted). *)
Definition delivers_to {St} (R : reader St) (V V' : St -> list Z -> Prop) : Prop := forall s l, V s l ->
  (length l <= rd_most R s)%nat /\
  forall n, 0 < n ->
  match rd_read R n s with
  | Got bs s' => exists l', l = bs ++ l' /\ zlen bs <= n /\ (bs = [] -> l = []) /\ V' s' l' /\ (length bs + rd_most R s' <= rd_most R s)%nat
  | Again s' => V s' l /\ (rd_most R s' < rd_most R s)%nat
  | Fails _ => False
  end.
Definition delivers {St} (R : reader St) (V : St -> list Z -> Prop) : Prop := delivers_to R V V.

(** ** Reading through a reader is reading its bytes *)
Definition gsim {St A} (V : St -> list Z -> Prop) (p : list Z -> res (A * list Z)) (q : St -> res (A * St)) : Prop := forall s l, V s l ->
  match p l with
  | Ok (v, rest) => exists s', q s = Ok (v, s') /\ V s' rest
  | Err e => q s = Err e
  | Panic => q s = Panic
  | Diverge => q s = Diverge
  end.

Lemma exact_loop {St} (R : reader St) V : delivers R V -> forall k n s l, V s l -> (rd_most R s < k)%nat -> 0 <= n ->
  if n <=? zlen l then exists s', g_exact_loop R k n s = Ok (take n l, s') /\ V s' (drop n l) else g_exact_loop R k n s = Err EOF.
Proof.
  intro HR. induction k as [|k IH]; intros n s l Hv Hk Hn; [lia|]. cbn [g_exact_loop]. pose proof (zlen_nonneg l). destruct (HR s l Hv) as [Hlm Hrd].
  destruct (Z.leb_spec n 0).
  - assert (n = 0) as -> by lia. destruct (Z.leb_spec 0 (zlen l)); [|lia]. exists s. split; [reflexivity|exact Hv].
  - specialize (Hrd n ltac:(lia)). destruct (rd_read R n s) as [bs s'|s'|e].
    + destruct Hrd as (l' & -> & Hb & He & Hv' & Hm). destruct bs as [|x bs].
      * specialize (He eq_refl). cbn [app] in *. subst l'. change (zlen (@nil Z)) with 0 in *. destruct (Z.leb_spec n 0); [lia|reflexivity].
      * set (c := x :: bs) in *. assert (Hc : 1 <= zlen c) by (unfold c; rewrite zlen_cons; pose proof (zlen_nonneg bs); lia). cbn [app]. rewrite zlen_app in *.
        assert (Hc' : (0 < length c)%nat) by (unfold c; cbn [length]; lia).
        specialize (IH (n - zlen c) s' l' Hv' ltac:(lia) ltac:(lia)).
        destruct (Z.leb_spec (n - zlen c) (zlen l')) as [A|A]; destruct (Z.leb_spec n (zlen c + zlen l')) as [B|B]; try lia.
        -- destruct IH as (s2 & E & Hv2). exists s2. rewrite E. cbn [bind]. rewrite take_app_r, drop_app_r by lia. split; [reflexivity|exact Hv2].
        -- rewrite IH. reflexivity.
    + destruct Hrd as [Hv' Hm]. apply IH; [exact Hv'|lia|lia].
    + contradiction.
Qed.
Section Sim.
  Context {St : Type} (R : reader St) (V : St -> list Z -> Prop) (HR : delivers R V).
  Lemma g_exact n : gsim V (read_exact n) (g_read_exact R n).
  Proof.
    intros s l Hv. unfold read_exact, g_read_exact. destruct (Z.le_gt_cases 0 n) as [Hn|Hn].
    - pose proof (exact_loop R V HR (S (rd_most R s)) n s l Hv ltac:(lia) Hn) as H. destruct (n <=? zlen l); exact H.
    - pose proof (zlen_nonneg l). destruct (Z.leb_spec n (zlen l)); [|lia]. cbn [g_exact_loop]. destruct (Z.leb_spec n 0); [|lia].
      unfold take, drop. replace (Z.to_nat n) with 0%nat by lia. cbn [firstn skipn]. exists s. split; [reflexivity|exact Hv].
  Qed.
  Ltac gs L := let H := fresh "H" in pose proof L as H; match type of H with match ?x with _ => _ end => destruct x as [[? ?]|?| |] end;
    [let s1 := fresh "s" in let Hv1 := fresh "Hv" in destruct H as (s1 & H & Hv1); rewrite H; clear H; cbn [bind fst snd] | rewrite H; reflexivity | rewrite H; reflexivity | rewrite H; reflexivity ].
  Lemma g_u8 : gsim V read_u8 (g_read_u8 R).
  Proof.
    intros s l Hv. unfold g_read_u8. pose proof (g_exact 1 s l Hv) as H. unfold read_exact in H. unfold read_u8. destruct l as [|x l].
    - change (1 <=? zlen (@nil Z)) with false in H. cbv iota in H. rewrite H. reflexivity.
    - replace (1 <=? zlen (x :: l)) with true in H by (rewrite zlen_cons; pose proof (zlen_nonneg l); lia). destruct H as (b' & -> & K). change (take 1 (x :: l)) with [x]. cbn [bind]. exists b'. split; [reflexivity|exact K].
  Qed.
  Lemma g_u16 : gsim V read_u16 (g_read_u16 R).
  Proof.
    intros s l Hv. unfold g_read_u16. pose proof (g_exact 2 s l Hv) as H. unfold read_exact in H. unfold read_u16. destruct l as [|x [|y l]].
    - change (2 <=? zlen (@nil Z)) with false in H. cbv iota in H. rewrite H. reflexivity.
    - change (2 <=? zlen [x]) with false in H. cbv iota in H. rewrite H. reflexivity.
    - replace (2 <=? zlen (x :: y :: l)) with true in H by (rewrite !zlen_cons; pose proof (zlen_nonneg l); lia). destruct H as (b' & -> & K). change (take 2 (x :: y :: l)) with [x; y]. cbn [bind]. exists b'. split; [reflexivity|exact K].
  Qed.
  Lemma g_varint m : forall fuel l s res sh, V s l -> (length l < fuel)%nat ->
    match read_u_varint_loop m res sh l with
    | Ok (v, rest) => exists s', g_varint_loop R fuel m res sh s = Ok (v, s') /\ V s' rest
    | Err e => g_varint_loop R fuel m res sh s = Err e
    | Panic => g_varint_loop R fuel m res sh s = Panic
    | Diverge => g_varint_loop R fuel m res sh s = Diverge
    end.
  Proof.
    induction fuel as [|k IH]; intros l s res sh Hv Hf; [lia|]. cbn [g_varint_loop]. pose proof (g_u8 s l Hv) as H. destruct l as [|x l]; cbn [read_u8 read_u_varint_loop] in *.
    - rewrite H. reflexivity.
    - destruct H as (s1 & -> & K). cbn [bind]. destruct (shl_u64 m (Z.land x 127) sh) as [v|e| |]; cbn [bind]; try reflexivity. destruct (Z.land x 128 =? 0); [exists s1; auto|].
      apply IH; [exact K|cbn [length] in Hf; lia].
  Qed.
  Lemma most_len s l : V s l -> (length l < S (rd_most R s))%nat.
  Proof. intro Hv. destruct (HR s l Hv) as [H _]. lia. Qed.
  Lemma g_u_varint m : gsim V (read_u_varint m) (g_read_u_varint R m).
  Proof. intros s l Hv. unfold read_u_varint, g_read_u_varint. apply g_varint; [exact Hv|now apply most_len]. Qed.
  Lemma g_i_varint m : gsim V (read_i_varint m) (g_read_i_varint R m).
  Proof. intros s l Hv. unfold read_i_varint, g_read_i_varint. gs (g_u_varint m s l Hv). eauto. Qed.
  Lemma g_header m : gsim V (read_section_header m) (g_read_section_header R m).
  Proof.
    intros s l Hv. unfold read_section_header, g_read_section_header. gs (g_u8 s l Hv). gs (g_u_varint m _ _ Hv0). set (f := if Z.land z SECTION_FORMAT_BIT =? SECTION_FORMAT_BIT then Segregated else Interleaved).
    destruct (is_segregated f).
    - gs (g_u_varint m _ _ Hv1). gs (g_u_varint m _ _ Hv2). destruct (arith m to_u32 (to_u32 z1 + to_u32 z2)) as [o|e| |]; cbn [bind]; try reflexivity. eauto.
    - cbn [bind]. gs (g_u_varint m _ _ Hv1). eauto.
  Qed.
  Lemma g_op_byte : gsim V read_op_byte (g_read_op_byte R).
  Proof.
    intros s l Hv. unfold read_op_byte, g_read_op_byte. gs (g_u8 s l Hv).
    destruct (Z.land z OP_MASK =? COPY_D); [eauto|]. destruct (Z.land z OP_MASK =? COPY_O); [eauto|]. destruct (Z.land z OP_MASK =? ADD); [eauto|].
    destruct (Z.land z OP_MASK =? RUN); [eauto|reflexivity].
  Qed.
  Lemma g_size sz : gsim V (fun bs => match sz with Done n => Ok (n, bs) | U8And62 => do (b, bs) <- read_u8 bs; Ok (b + 62, bs) | U16 => read_u16 bs end)
    (fun bs => match sz with Done n => Ok (n, bs) | U8And62 => do (b, bs) <- g_read_u8 R bs; Ok (b + 62, bs) | U16 => g_read_u16 R bs end).
  Proof.
    intros s l Hv. cbv beta. destruct sz as [n| |]; [eauto| |now apply g_u16]. gs (g_u8 s l Hv). eauto.
  Qed.
  Lemma g_op m d o il : gsim V (read_op m d o il) (g_read_op R m d o il).
  Proof.
    intros s l Hv. unfold read_op, g_read_op. pose proof (g_op_byte s l Hv) as H. destruct (read_op_byte l) as [[[ot sz] r]|e| |]; try (rewrite H; reflexivity). destruct H as (s1 & -> & K1). cbn [bind].
    assert (E : (match ot, sz with TRun, Done _ => Ok tt | TRun, _ => Err InvalidData | _, _ => Ok tt end = Ok tt) \/ (match ot, sz with TRun, Done _ => Ok tt | TRun, _ => Err InvalidData | _, _ => Ok tt end = Err InvalidData)) by (destruct ot, sz; auto).
    destruct E as [-> | ->]; cbn [bind]; [|reflexivity]. pose proof (g_size sz s1 r K1) as H. cbv beta in H.
    destruct (match sz with Done n => Ok (n, r) | U8And62 => do (b, bs) <- read_u8 r; Ok (b + 62, bs) | U16 => read_u16 r end) as [[n r2]|e| |]; try (rewrite H; reflexivity). destruct H as (s2 & -> & K2). cbn [bind].
    destruct ot as [[|]| |].
    - gs (g_i_varint m _ _ K2). destruct (diff_addresses_to_u64 m d z); cbn [bind]; try reflexivity. eauto.
    - gs (g_i_varint m _ _ K2). destruct (diff_addresses_to_u64 m o z); cbn [bind]; try reflexivity. eauto.
    - destruct il; [|eauto]. gs (g_exact n _ _ K2). eauto.
    - gs (g_u8 _ _ K2). eauto.
  Qed.
  Lemma g_ops_loop m f : forall k k' n d o cs na s l, V s l -> (length l < k)%nat -> (length l < k')%nat ->
    match read_ops_loop k m f n d o cs na l with
    | Ok (v, w, x, rest) => exists s', g_read_ops_loop R k' m f n d o cs na s = Ok (v, w, x, s') /\ V s' rest
    | Err e => g_read_ops_loop R k' m f n d o cs na s = Err e
    | Panic => g_read_ops_loop R k' m f n d o cs na s = Panic
    | Diverge => g_read_ops_loop R k' m f n d o cs na s = Diverge
    end.
  Proof.
    induction k as [|k IH]; intros k' n d o cs na s l Hv Hk Hk'; [lia|]. destruct k' as [|k']; [lia|]. cbn [read_ops_loop g_read_ops_loop]. destruct (n <=? 0); [eauto|].
    pose proof (g_op m d o (negb (is_segregated f)) s l Hv) as H. destruct (read_op m d o (negb (is_segregated f)) l) as [[[[x d'] o'] r]|e| |] eqn:E; try (rewrite H; reflexivity). destruct H as (s1 & -> & K1). cbn [bind].
    apply read_op_consumes in E. destruct (arith m to_u32 (cs + oal x)) as [cs'|e| |]; cbn [bind]; try reflexivity.
    destruct (if is_segregated f && is_add x then arith m to_u32 (na + oal x) else Ok na) as [na'|e| |]; cbn [bind]; try reflexivity.
    specialize (IH k' (n - 1) d' o' cs' na' s1 r K1 ltac:(lia) ltac:(lia)). destruct (read_ops_loop k m f (n - 1) d' o' cs' na' r) as [[[[l' c2] n2] r']|e| |]; try (rewrite IH; reflexivity). destruct IH as (s2 & -> & K2). cbn [bind]. eauto.
  Qed.
  Lemma g_fill : forall ops, gsim V (fill_adds ops) (g_fill_adds R ops).
  Proof.
    induction ops as [|o ops IH]; intros s l Hv; cbn [fill_adds g_fill_adds]; [eauto|]. destruct o as [bs|x n|c a n].
    - gs (g_exact (zlen bs) s l Hv). gs (IH _ _ Hv0). eauto.
    - gs (IH _ _ Hv). eauto.
    - gs (IH _ _ Hv). eauto.
  Qed.
  Lemma g_ops_no_comp m h : gsim V (read_ops_no_comp m h) (g_read_ops_no_comp R m h).
  Proof.
    intros s l Hv. unfold read_ops_no_comp, g_read_ops_no_comp. pose proof (g_ops_loop m (h_format h) (S (length l)) (S (rd_most R s)) (h_nops h) 0 0 0 (h_nadd h) s l Hv ltac:(lia) (most_len s l Hv)) as H.
    destruct (read_ops_loop (S (length l)) m (h_format h) (h_nops h) 0 0 0 (h_nadd h) l) as [[[[l' c2] n2] r]|e| |]; try (rewrite H; reflexivity). destruct H as (s1 & -> & K1). cbn [bind].
    destruct (negb (c2 =? h_osize h)); [reflexivity|]. destruct (h_format h); [eauto|]. gs (g_fill l' _ _ K1). eauto.
  Qed.
  Lemma g_section m : gsim V (read_section m) (g_read_section R m).
  Proof.
    intros s l Hv. unfold read_section, g_read_section. gs (g_header m s l Hv). apply (g_ops_no_comp m h). exact Hv0.
  Qed.
  Lemma g_loop (next : list Z -> res (list op * header * list Z)) (gnext : St -> res (list op * header * St)) (gloop : nat -> St -> sink -> Z -> sink * res St) dict :
    gsim V next gnext -> (forall bs ops h r, next bs = Ok (ops, h, r) -> (length r < length bs)%nat) ->
    (forall k bs s pos, gloop (S k) bs s pos = match gnext bs with
      | Ok (ops, h, rest) =>
          match apply_ops dict ops s pos with
          | (s', pos', Ok _) => if h_more h then gloop k rest s' pos' else (s', Ok rest)
          | (s', _, Err e) => (s', Err e)
          | (s', _, Panic) => (s', Panic)
          | (s', _, Diverge) => (s', Diverge)
          end
      | Err e => (s, Err e)
      | Panic => (s, Panic)
      | Diverge => (s, Diverge)
      end) ->
    forall k k' b l s pos, V b l -> (length l < k)%nat -> (length l < k')%nat ->
    match apply_loop next k dict l s pos with
    | (s', Ok rest) => exists b', gloop k' b s pos = (s', Ok b') /\ V b' rest
    | (s', Err e) => gloop k' b s pos = (s', Err e)
    | (s', Panic) => gloop k' b s pos = (s', Panic)
    | (s', Diverge) => gloop k' b s pos = (s', Diverge)
    end.
  Proof.
    intros Hn Hsh Hl. induction k as [|k IH]; intros k' b l s pos Hv Hk Hk'; [lia|]. destruct k' as [|k']; [lia|]. rewrite Hl. cbn [apply_loop].
    pose proof (Hn b l Hv) as H. destruct (next l) as [[[ops h] r]|e| |] eqn:E; try (rewrite H; reflexivity). destruct H as (b1 & -> & K1). apply Hsh in E.
    destruct (apply_ops dict ops s pos) as [[s' p'] [u|e| |]]; try reflexivity. destruct (h_more h); [|eauto]. apply IH; [exact K1|lia|lia].
  Qed.
End Sim.

Lemma buffered_delivers {St} (R : reader St) V : delivers R V -> delivers (buffered R) (fun b l => exists l', l = fst b ++ l' /\ V (snd b) l').
Proof.
  intros HR [have r] l (l' & -> & Hv). cbn [fst snd] in *. destruct (HR r l' Hv) as [Hl Hrd]. split; [cbn [buffered rd_most fst snd]; rewrite app_length; lia|]. intros n Hn. cbn [buffered rd_read rd_most buf_read fst snd].
  destruct have as [|x have].
  - cbn [app length]. destruct (Z.geb_spec n BUF_SIZE).
    + specialize (Hrd n Hn). destruct (rd_read R n r) as [bs r'|r'|e]; [|destruct Hrd as [A B]; split; [exists l'; auto|cbn [fst snd length]; lia]|exact Hrd].
      destruct Hrd as (l2 & E & A & B & C & D). exists l2. split; [exact E|]. split; [exact A|]. split; [exact B|]. cbn [fst snd length app]. split; [eauto|lia].
    + specialize (Hrd BUF_SIZE ltac:(reflexivity)). destruct (rd_read R BUF_SIZE r) as [bs r'|r'|e]; [|destruct Hrd as [A B]; split; [exists l'; auto|cbn [fst snd length]; lia]|exact Hrd].
      destruct Hrd as (l2 & -> & A & B & C & D). exists (drop n bs ++ l2). split; [now rewrite app_assoc, take_drop|]. split; [rewrite zlen_take_min by lia; lia|].
      split; [|split; [cbn [fst snd]; eauto|]].
      * intro E. assert (bs = []) as Eb. { apply zlen_0. pose proof (zlen_nonneg bs). assert (X : zlen (take n bs) = 0) by now rewrite E. rewrite zlen_take_min in X by lia. lia. }
        apply B, Eb.
      * cbn [fst snd]. assert (length (take n bs) + length (drop n bs) = length bs)%nat by (rewrite <- app_length; now rewrite take_drop). lia.
  - set (c := x :: have). exists (drop n c ++ l'). split; [now rewrite app_assoc, take_drop|]. assert (Hc : 1 <= zlen c) by (unfold c; rewrite zlen_cons; pose proof (zlen_nonneg have); lia).
    split; [rewrite zlen_take_min by lia; lia|]. split; [|split; [cbn [fst snd]; eauto|]].
    + intro E. assert (X : zlen (take n c) = 0) by now rewrite E. rewrite zlen_take_min in X by lia. lia.
    + cbn [fst snd]. assert (length (take n c) + length (drop n c) = length c)%nat by (rewrite <- app_length; now rewrite take_drop). unfold c in *. lia.
Qed.

(** ** C94 *)
(** smdiff-reader: headers and sections (without secondary compression) from any reader. *)
Theorem C94_any_reader_section : forall St (R : reader St) V m s l, delivers R V -> V s l ->
  match read_section m l with
  | Ok (ops, h, rest) => exists s', g_read_section R m s = Ok (ops, h, s') /\ V s' rest
  | Err e => g_read_section R m s = Err e
  | Panic => g_read_section R m s = Panic
  | Diverge => g_read_section R m s = Diverge
  end.
Proof.
  intros St R V m s l HR Hv. pose proof (g_section R V HR m s l Hv) as H. destruct (read_section m l) as [[[ops h] r]|e| |]; exact H.
Qed.
(** What is needed of the external decoders on the buffered patch reader: what they are said to do on its bytes. *)
Definition ext_reads {St} (V : St -> list Z -> Prop) (cd : codecs) (xd : Z -> list Z * St -> res (list Z * (list Z * St))) : Prop :=
  forall have s l algo, algo = 2 \/ algo = 3 -> V s l ->
  match (if algo =? 2 then zstd_dec cd else brotli_dec cd) (have ++ l) with
  | Ok (v, rest) => exists have' s' l', xd algo (have, s) = Ok (v, (have', s')) /\ V s' l' /\ rest = have' ++ l'
  | Err e => xd algo (have, s) = Err e
  | Panic => xd algo (have, s) = Panic
  | Diverge => xd algo (have, s) = Diverge
  end.
Lemma g_next {St} (R : reader St) V m cd xd : delivers R V -> ext_reads V cd xd ->
  gsim (fun b l => exists l', l = fst b ++ l' /\ V (snd b) l') (next_section m cd) (g_next_section (buffered R) m xd).
Proof.
  intros HR Hx. pose proof (buffered_delivers R V HR) as HB. set (B := buffered R) in *. set (W := fun (b : list Z * St) l => exists l', l = fst b ++ l' /\ V (snd b) l') in *. intros b l Hv. unfold next_section, g_next_section.
  pose proof (g_header B W HB m b l Hv) as H. destruct (read_section_header m l) as [[h r]|e| |]; try (rewrite H; reflexivity). destruct H as (b1 & -> & K1). cbn [bind].
  destruct (h_comp h =? 1); [|destruct (h_comp h =? 2); [|destruct (h_comp h =? 3)]].
  - unfold apply_no_sec_comp.
    pose proof (g_loop W (read_section m) (g_read_section B m) (g_apply_loop B m) None (g_section B W HB m)) as L. specialize (L (fun bs ops h r E => Nat.le_lt_trans _ _ _ (Nat.le_add_l _ _) (section_count m bs ops h r E))).
    specialize (L ltac:(intros; reflexivity) (S (length r)) (S (rd_most B b1)) b1 r (mkSink [] 0) 0 K1 ltac:(lia) (most_len B W HB b1 r K1)).
    destruct (apply_loop (read_section m) (S (length r)) None r (mkSink [] 0) 0) as [s [r2|e| |]]; try (rewrite L; reflexivity). destruct L as (b2 & -> & K2).
    destruct (read_ops_no_comp m h (sbuf s)) as [[[l2 h'] x]|e| |]; cbn [bind]; try reflexivity. eauto.
  - destruct b1 as [have s]. destruct K1 as (l1 & -> & K1). cbn [fst snd] in K1. pose proof (Hx have s l1 2 (or_introl eq_refl) K1) as H. cbn [fst] in *. change (2 =? 2) with true in H. cbv iota in H.
    destruct (zstd_dec cd (have ++ l1)) as [[d r]|e| |]; try (rewrite H; reflexivity). destruct H as (h2 & s2 & l2 & -> & K2 & ->). cbn [bind].
    destruct (read_ops_no_comp m h d) as [[[o h'] x]|e| |]; cbn [bind]; try reflexivity. eexists. split; [reflexivity|]. exists l2. auto.
  - destruct b1 as [have s]. destruct K1 as (l1 & -> & K1). cbn [fst snd] in K1. pose proof (Hx have s l1 3 (or_intror eq_refl) K1) as H. cbn [fst] in *. change (3 =? 2) with false in H. cbv iota in H.
    destruct (brotli_dec cd (have ++ l1)) as [[d r]|e| |]; try (rewrite H; reflexivity). destruct H as (h2 & s2 & l2 & -> & K2 & ->). cbn [bind].
    destruct (read_ops_no_comp m h d) as [[[o h'] x]|e| |]; cbn [bind]; try reflexivity. eexists. split; [reflexivity|]. exists l2. auto.
  - exact (g_ops_no_comp B W HB m h b1 r K1).
Qed.
(** apply_patch: it makes no difference how the reader cuts the patch. *)
Theorem C94_any_reader_patch : forall St (R : reader St) V m cd xd patch bytes dict sink, delivers R V -> codecs_shrink cd -> ext_reads V cd xd -> V patch bytes ->
  g_apply_patch R m xd patch dict sink = apply_patch m cd bytes dict sink.
Proof.
  intros St R V m cd xd patch bytes dict sink HR Hsh Hx Hv. unfold g_apply_patch, apply_patch. pose proof (buffered_delivers R V HR) as HB. set (B := buffered R) in *. set (W := fun (b : list Z * St) l => exists l', l = fst b ++ l' /\ V (snd b) l') in *.
  assert (Hw : W ([], patch) bytes) by (exists bytes; auto).
  pose proof (g_loop W (next_section m cd) (g_next_section B m xd) (fun k => g_patch_loop B m xd k dict) dict (g_next R V m cd xd HR Hx) (next_section_shrink m cd Hsh) ltac:(intros; reflexivity)
    (S (length bytes)) (S (rd_most B ([], patch))) ([], patch) bytes sink 0 Hw ltac:(lia) (most_len B W HB _ _ Hw)) as L.
  cbv beta in L. destruct (apply_loop (next_section m cd) (S (length bytes)) dict bytes sink 0) as [s' [r|e| |]]; [destruct L as (b' & -> & _)|rewrite L..]; reflexivity.
Qed.

(** ** C95 *)
(** What is asked of a streaming decoder: made over a compressed stream and whatever follows it, it delivers the content; once it has been read from and has delivered everything, it has seen
    the end of the stream and has consumed exactly that. Nothing is said of a decoder that has not been read from. *)
Definition stream_rt (enc : Z -> list Z -> list Z) (D : sdec) : Prop := exists fresh begun : list Z -> sd_st D -> list Z -> Prop,
  (forall level x t, Forall is_byte x -> exists s, sd_open D (enc level x ++ t) = Ok s /\ fresh t s x) /\
  (forall t, delivers_to (sd_reader D) (fresh t) (begun t)) /\ (forall t, delivers (sd_reader D) (begun t)) /\
  (forall t s, begun t s [] -> sd_left D s = t /\ sd_finished D s = true).
Definition comp_streams (cd : codecs) (zs br : sdec) (sc : option sec_comp) : Prop :=
  match sc with Some (ZstdComp _) => stream_rt (zstd_enc cd) zs | Some (BrotliComp _) => stream_rt (brotli_enc cd) br | _ => True end.
Definition external (sc : option sec_comp) : Prop := match sc with Some (ZstdComp _) | Some (BrotliComp _) => True | _ => False end.

(** A stream of which everything is read. *)
Lemma stream_reads enc D level x t m h ops h' : stream_rt enc D -> Forall is_byte x -> read_ops_no_comp m h x = Ok (ops, h', []) ->
  exists s s', sd_open D (enc level x ++ t) = Ok s /\ g_read_ops_no_comp (sd_reader D) m h s = Ok (ops, h', s') /\ (x <> [] -> sd_left D s' = t /\ sd_finished D s' = true).
Proof.
  intros (fresh & begun & Hopen & Hf & Hb & Hfin) Hx E. destruct (Hopen level x t Hx) as (s & Eo & Hs). exists s.
  set (W := fun s l => (fresh t s l /\ l = x) \/ begun t s l).
  assert (HW : delivers (sd_reader D) W).
  { intros s0 l [[H1 H2]|H1].
    - destruct (Hf t s0 l H1) as [A B]. split; [exact A|]. intros n Hn. specialize (B n Hn). destruct (rd_read (sd_reader D) n s0) as [bs s1|s1|e].
      + destruct B as (l' & B1 & B2 & B3 & B4 & B5). exists l'. do 3 (split; [assumption|]). split; [right; exact B4|exact B5].
      + destruct B as [B1 B2]. split; [left; auto|exact B2].
      + exact B.
    - destruct (Hb t s0 l H1) as [A B]. split; [exact A|]. intros n Hn. specialize (B n Hn). destruct (rd_read (sd_reader D) n s0) as [bs s1|s1|e].
      + destruct B as (l' & B1 & B2 & B3 & B4 & B5). exists l'. do 3 (split; [assumption|]). split; [right; exact B4|exact B5].
      + destruct B as [B1 B2]. split; [right; exact B1|exact B2].
      + exact B. }
  pose proof (g_ops_no_comp (sd_reader D) W HW m h s x (or_introl (conj Hs eq_refl))) as H. rewrite E in H. destruct H as (s' & Es & HV). exists s'. split; [exact Eo|]. split; [exact Es|].
  intro Hne. destruct HV as [[_ X]|HV]; [congruence|]. now apply Hfin.
Qed.
Lemma section_writer_good_s m m' cd zs br sc f ops h b : comp_streams cd zs br sc -> (external sc -> ops <> []) -> sec_in f max_win_size (ops, h) ->
  section_writer m cd sc ops h = (b, Ok tt) -> sec_good (next_section_s m' zs br) b ops (set_comp h (comp_value sc)).
Proof.
  intros Hcd Hne0 Hin H. destruct sc as [comp|]; cbn [section_writer comp_value] in *.
  2: { destruct (sec_write f ops h 0 Hin ltac:(lia)) as (hb & ob & E1 & E2 & Hne & _ & _ & Hr1 & Hr2).
       assert (Hc : h_comp h = 0) by apply Hin. rewrite (set_comp_0 h Hc) in *.
       unfold plain_writer in H. rewrite E1 in H. cbn [wbind] in H. rewrite E2 in H. injection H as <-.
       split; [destruct hb; [contradiction|discriminate]|]. intro t. rewrite <- app_assoc. destruct (Hr2 m' t) as (h' & E & G). exists h'. split; [|exact G].
       unfold next_section_s. rewrite Hr1. cbn [bind]. replace (h_comp (read_back h)) with 0 by (destruct h; cbn in *; congruence). exact E. }
  destruct (sec_write f ops h (algo_value comp) Hin) as (hb & ob & E1 & E2 & Hne & Hob & Hlob & Hr1 & Hr2);
    [destruct comp; cbn; lia|].
  cbv zeta in H. rewrite E1, E2 in H. cbn [wbind wlift] in H.
  assert (exists z, b = hb ++ z /\ match comp with
    | SmdiffComp c => encode_nocomp m c ob = (z, Ok tt)
    | ZstdComp l => z = zstd_enc cd l ob
    | BrotliComp o => z = brotli_enc cd o ob end) as (z & -> & Hz).
  { destruct comp as [c|l|o].
    - destruct (encode_nocomp m c ob) as [z r]. cbn [wbind wlift app] in H. inversion H; subst. eauto.
    - cbn in H. inversion H. eauto.
    - cbn in H. inversion H. eauto. }
  split; [destruct hb; [contradiction|discriminate]|]. intro t. rewrite <- app_assoc.
  destruct (Hr2 m' []) as (h' & E & G). rewrite app_nil_r in E. exists h'. split; [|exact G].
  assert (Hemp : ops <> [] -> ob <> []) by (intros Hx ->; apply Hx; exact (write_ops_empty m' _ _ _ _ E)).
  unfold next_section_s. rewrite Hr1. cbn [bind].
  replace (h_comp (read_back (set_comp h (algo_value comp)))) with (algo_value comp) by (destruct h; reflexivity).
  destruct comp as [c|l|o]; cbn [algo_value Z.eqb Pos.eqb] in *.
  - destruct (encode_nocomp_good m m' c ob z t Hob Hlob Hz) as (s & -> & Hs). rewrite Hs, E. reflexivity.
  - subst z. destruct (stream_reads _ _ l ob t m' _ _ _ Hcd Hob E) as (s & s' & -> & Er & Hf). rewrite Er. cbn [bind]. destruct (Hf (Hemp (Hne0 I))) as [-> _]. reflexivity.
  - subst z. destruct (stream_reads _ _ o ob t m' _ _ _ Hcd Hob E) as (s & s' & -> & Er & Hf). cbn [bind]. rewrite Er. cbn [bind]. destruct (Hf (Hemp (Hne0 I))) as [-> ->]. reflexivity.
Qed.
Lemma apply_patch_s_stream m zs br secs bs t d old p : stream_of false (next_section_s m zs br) secs bs -> Forall op_nonneg (concat secs) ->
  exists p', apply_patch_s m zs br (bs ++ t) (Some d) (mkSink old p) =
  let '(out, ok) := perform d old [] (concat secs) in (mkSink (over out old) p', if ok then Ok tt else Err EOF).
Proof.
  intros Hs Hn. unfold apply_patch_s.
  destruct (apply_loop_stream _ _ _ _ Hs (S (length (bs ++ t))) d old [] p t ltac:(lia) Hn) as (p' & E).
  cbn [app zlen length Z.of_nat] in E. rewrite over_0 in E. rewrite E. exists p'.
  destruct (perform d old [] (concat secs)) as [out [|]]; reflexivity.
Qed.
(** C95. Patches that encode makes are applied correctly by a decoder that decompresses as it goes: every section asks its decompressor for exactly its content, after which the next section is in
    front. Any settings, dictionary and target; with zstd or brotli compression: any non-empty target. *)
Theorem C95_streaming_roundtrip : forall m m' cd zs br c dict trgt patch, comp_streams cd zs br (cf_comp c) -> (external (cf_comp c) -> trgt <> []) ->
  Forall is_byte trgt -> zlen trgt < 2 ^ 63 -> zlen (source_of dict) < 2 ^ 63 -> encode m cd c dict trgt = (patch, Ok tt) ->
  forall t old p, exists p', apply_patch_s m' zs br (patch ++ t) dict (mkSink old p) = (mkSink (trgt ++ drop (zlen trgt) old) p', Ok tt).
Proof.
  intros m m' cd zs br c dict trgt patch Hcd Hne Hb Ht Hs H t old p.
  assert (Hwr : forall ops h b, (ops = [] -> trgt = []) -> sec_in (cf_format c) max_win_size (ops, h) -> section_writer m cd (cf_comp c) ops h = (b, Ok tt) ->
     sec_good (next_section_s m' zs br) b ops (set_comp h (comp_value (cf_comp c)))).
  { intros ops h b He Hi Hw. eapply section_writer_good_s; [exact Hcd| |exact Hi|exact Hw]. intros Hx Ho. exact (Hne Hx (He Ho)). }
  destruct (encode_with_good m _ (next_section_s m' zs br) _ _ (comp_value (cf_comp c)) _ _ _ _ Hwr Hb Ht Hs H) as (cs & ops & _ & _ & [Hg Hrun] & Hnd & Hcat & _ & _ & Hsg).
  apply secs_good_stream in Hsg. rewrite sec_with_ops in Hsg. pose proof (ops_ok_nonneg _ (good_ok _ Hg)) as Hnn.
  destruct (apply_patch_s_stream m' zs br _ patch t (source_of dict) old p Hsg) as (p' & E); [now rewrite Hcat|].
  rewrite Hcat in E. rewrite (perform_old _ old _ [] _ Hnn Hrun) in E. cbn [app] in E. exists p'. destruct dict as [d|]; [exact E|].
  unfold apply_patch_s in *. rewrite (apply_loop_no_dict _ _ [] _ _ Hsg); [exact E|].
  rewrite Hcat. specialize (Hnd eq_refl). apply forallb_forall. intros x Hx. destruct (is_dict_copy x) eqn:Ex; [|reflexivity].
  assert (existsb is_dict_copy ops = true) by (apply existsb_exists; eauto). congruence.
Qed.
Lemma encode_empty m cd c dict b : zlen (source_of dict) < 2 ^ 63 -> encode m cd c dict [] = (b, Ok tt) ->
  exists h, sec_in (cf_format c) max_win_size ([], h) /\ h_more h = false /\ section_writer m cd (cf_comp c) [] h = (b, Ok tt).
Proof.
  intros Hs H. change (encode_with m (section_writer m cd (cf_comp c)) (inner_of c) (cf_format c) (cf_segment c) (source_of dict) [] = (b, Ok tt)) in H.
  destruct (encode_with_inv _ _ _ _ _ _ _ _ H) as (cs & ops & Hc & Hp & Hw). clear H. assert (Hb : Forall is_byte []) by constructor. assert (Hs' : zlen (source_of dict) < 2 ^ 64) by lia.
  assert (Hz : zlen (@nil Z) < 2 ^ 63) by reflexivity.
  destruct (encode_inner_sound m _ _ [] cs Hb ltac:(lia) Hs' Hc) as [Hcs Hord].
  destruct (translate_ok m _ [] cs Hb ltac:(lia) Hs' Hcs Hord) as (ops' & Ho & Hmk & _). rewrite Hp in Ho. injection Ho as <-.
  assert (ops = []) as ->. { destruct Hmk as [Hg Hr]. pose proof (run_ops_len _ ops [] _ (ops_ok_nonneg _ (good_ok _ Hg)) Hr) as Hl. pose proof (good_zlen _ Hg). cbn [app] in Hl. rewrite !(@zlen_nil Z) in Hl. apply zlen_0. pose proof (zlen_nonneg ops). lia. }
  destruct (sections_in (cf_format c) (cf_segment c) _ [] [] Hmk Hz Hs) as (Hcat & Hfl & Hin).
  unfold make_sections in Hw, Hin. cbn [make_sections_loop section_of write_sections] in Hw, Hin. inversion Hin as [|? ? Hi _]; subst. clear Hin. cbn [section_of fst snd] in Hi.
  match goal with H : sec_in _ _ (_, ?x) |- _ => exists x end.
  destruct Hi as (G1 & G2 & G3 & G4 & G5 & G5b & G6). split; [|split; [reflexivity|]].
  - repeat (split; [assumption|]). eapply Z.le_trans; [exact G6|]. unfold clamp_section, max_inst_size, max_win_size. lia.
  - cbv zeta in Hw. apply wbind_ok in Hw as (o1 & [] & o2 & Hc1 & Hw & ->). apply wlift_inv in Hc1 as [-> _]. apply wbind_ok in Hw as (o3 & [] & o4 & Hw & Hx & ->). injection Hx as <-. rewrite app_nil_r. exact Hw.
Qed.
(** A section without operations, externally compressed: nothing is read from the decompressor. *)
Lemma empty_section_s m m' cd zs br comp f h b t : external (Some comp) -> sec_in f max_win_size ([], h) -> section_writer m cd (Some comp) [] h = (b, Ok tt) ->
  exists bs h', h_more h' = h_more h /\
  match comp with
  | ZstdComp l => bs = zstd_enc cd l [] ++ t /\ forall s, sd_open zs bs = Ok s -> next_section_s m' zs br (b ++ t) = Ok ([], h', sd_left zs s)
  | BrotliComp l => bs = brotli_enc cd l [] ++ t /\ forall s, sd_open br bs = Ok s -> next_section_s m' zs br (b ++ t) = if sd_finished br s then Ok ([], h', sd_left br s) else Err InvalidData
  | SmdiffComp _ => True
  end.
Proof.
  intros Hx Hin H. cbn [section_writer] in H.
  destruct (sec_write f [] h (algo_value comp) Hin) as (hb & ob & E1 & E2 & Hne & Hob & Hlob & Hr1 & Hr2); [destruct comp; cbn; lia|].
  cbv zeta in H. rewrite E1, E2 in H. cbn [wbind wlift] in H.
  assert (Eo : ob = []).
  { pose proof (E2 m) as E3. unfold write_ops in E3. destruct (_ >? MAX_WIN_SIZE); [discriminate E3|]. destruct (negb (zlen (@nil op) =? _)); [discriminate E3|].
    destruct (h_format (set_comp h (algo_value comp))); cbn [write_ops_loop wlift wbind is_segregated wput] in E3.
    - destruct (negb _); [discriminate E3|]. injection E3 as <-. reflexivity.
    - destruct (negb _) in E3; [discriminate E3|]. cbn [wlift wbind] in E3. destruct (negb _) in E3; [discriminate E3|]. injection E3 as <-. reflexivity. }
  destruct (Hr2 m' []) as (h' & E & G). rewrite app_nil_r in E. rewrite Eo in *.
  exists (match comp with ZstdComp l => zstd_enc cd l [] ++ t | BrotliComp l => brotli_enc cd l [] ++ t | _ => [] end), h'. split; [destruct G as (_ & _ & G & _); exact G|].
  assert (Er : forall St (R : reader St) s, g_read_ops_no_comp R m' (read_back (set_comp h (algo_value comp))) s = Ok ([], h', s)).
  { intros St R s. unfold read_ops_no_comp in E. unfold g_read_ops_no_comp. cbn [length read_ops_loop g_read_ops_loop] in *. destruct (h_nops (read_back (set_comp h (algo_value comp))) <=? 0); [|discriminate E].
    cbn [bind] in *. destruct (negb _); [discriminate E|]. destruct (h_format (read_back (set_comp h (algo_value comp)))); cbn [fill_adds g_fill_adds bind] in *; injection E as <-; reflexivity. }
  destruct comp as [c|l|l]; [exact I| |]; (split; [reflexivity|]); intros s Es; cbn in H; injection H as <-; rewrite <- app_assoc; unfold next_section_s; rewrite Hr1; cbn [bind].
  - replace (h_comp (read_back (set_comp h (algo_value (ZstdComp l))))) with 2 by (destruct h; reflexivity). cbn [Z.eqb Pos.eqb]. rewrite Es, Er. reflexivity.
  - replace (h_comp (read_back (set_comp h (algo_value (BrotliComp l))))) with 3 by (destruct h; reflexivity). cbn [Z.eqb Pos.eqb]. rewrite Es. cbn [bind]. rewrite Er. reflexivity.
Qed.
(** An empty target with zstd: the patch is applied (that the decompressor has not consumed its data does not matter, no section follows). *)
Theorem C95_zstd_empty_target : forall m m' cd zs br c level dict patch, cf_comp c = Some (ZstdComp level) -> zlen (source_of dict) < 2 ^ 63 ->
  (forall t, exists s, sd_open zs (zstd_enc cd level [] ++ t) = Ok s) -> encode m cd c dict [] = (patch, Ok tt) ->
  forall t old p, exists p', apply_patch_s m' zs br (patch ++ t) dict (mkSink old p) = (mkSink old p', Ok tt).
Proof.
  intros m m' cd zs br c level dict patch Hc Hs Hop H t old p. destruct (encode_empty m cd c dict patch Hs H) as (h & Hin & Hm & Hw). rewrite Hc in Hw.
  destruct (empty_section_s m m' cd zs br (ZstdComp level) _ h patch t I Hin Hw) as (bs & h' & Hm' & -> & Hn). destruct (Hop t) as (s & Es). specialize (Hn s Es).
  unfold apply_patch_s. cbn [apply_loop]. rewrite Hn. unfold apply_ops. cbn [apply_ops_loop]. rewrite Hm', Hm. cbn [bind]. eexists. reflexivity.
Qed.
(** An empty target with brotli, whose decoder is made without reading anything and has then not seen the end of its data: that every patch of encode is applied is false; this one never is.
    apply_patch reports an error, in every build, with any dictionary and sink. *)
Theorem C95_brotli_empty_target_refuted : forall m m' cd zs br c options dict patch, cf_comp c = Some (BrotliComp options) -> zlen (source_of dict) < 2 ^ 63 ->
  (forall bs, exists s, sd_open br bs = Ok s /\ sd_finished br s = false) -> encode m cd c dict [] = (patch, Ok tt) ->
  forall t dict' sink, apply_patch_s m' zs br (patch ++ t) dict' sink = (sink, Err InvalidData).
Proof.
  intros m m' cd zs br c level dict patch Hc Hs Hop H t dict' sk. destruct (encode_empty m cd c dict patch Hs H) as (h & Hin & Hm & Hw). rewrite Hc in Hw.
  destruct (empty_section_s m m' cd zs br (BrotliComp level) _ h patch t I Hin Hw) as (bs & h' & Hm' & -> & Hn). destruct (Hop (brotli_enc cd level [] ++ t)) as (s & Es & Ef). specialize (Hn s Es). rewrite Ef in Hn.
  unfold apply_patch_s. cbn [apply_loop]. rewrite Hn. reflexivity.
Qed.

(** ** Instances *)
(** A reader that is interrupted before every byte and gives one byte at a time, whatever it is asked for. *)
Definition trickle : reader (bool * list Z) := mkReader
  (fun n s => match s with (false, l) => Again (true, l) | (true, []) => Got [] (true, []) | (true, x :: l) => Got [x] (false, l) end)
  (fun s => 2 * length (snd s) + (if fst s then 0 else 1))%nat.
Lemma trickle_delivers : delivers trickle (fun s l => snd s = l).
Proof.
  intros [b l] l' <-. cbn [snd]. split; [cbn [trickle rd_most fst snd]; lia|]. intros n Hn. cbn [trickle rd_read rd_most]. destruct b; [destruct l as [|x l]|].
  - exists []. repeat split; try (cbn; lia). 
  - exists l. repeat split; try (rewrite zlen_cons; change (zlen (@nil Z)) with 0; lia); try discriminate. cbn [length fst snd]. lia.
  - split; [reflexivity|cbn [fst snd]; lia].
Qed.
(** A reader that always gives half of what is asked for (but at least one byte). *)
Definition halves : reader (list Z) := mkReader (fun n l => Got (take (Z.max 1 (n / 2)) l) (drop (Z.max 1 (n / 2)) l)) (@length Z).
Lemma halves_delivers : delivers halves eq.
Proof.
  intros s l <-. split; [reflexivity|]. intros n Hn. cbn [halves rd_read rd_most]. set (k := Z.max 1 (n / 2)). assert (Hk : 1 <= k <= n) by (unfold k; assert (n / 2 < n) by (apply Z.div_lt; lia); lia).
  exists (drop k s). split; [now rewrite take_drop|]. split; [rewrite zlen_take_min by lia; lia|]. split; [|split; [reflexivity|]].
  - intro E. apply zlen_0. pose proof (zlen_nonneg s). assert (X : zlen (take k s) = 0) by now rewrite E. rewrite zlen_take_min in X by lia. lia.
  - rewrite <- app_length, take_drop. lia.
Qed.
Lemma no_ext St V : @ext_reads St V no_codecs (fun _ _ => Err EOF).
Proof. intros have s l a [-> | ->] _; reflexivity. Qed.
Definition c94_patch : list Z := [72; 6; 7; 96; 0; 1; 17; 145; 198; 9; 30; 0; 130; 30; 20; 30; 19; 133; 77; 78; 1; 2; 3; 4; 5].
Example C94_example : forall m, snd (g_apply_patch trickle m (fun _ _ => Err EOF) (false, c94_patch) (Some ex_src) (mkSink [] 0)) = Ok tt /\
  sbuf (fst (g_apply_patch trickle m (fun _ _ => Err EOF) (false, c94_patch) (Some ex_src) (mkSink [] 0))) = ex_trgt /\
  g_apply_patch halves m (fun _ _ => Err EOF) c94_patch (Some ex_src) (mkSink [] 0) = g_apply_patch trickle m (fun _ _ => Err EOF) (false, c94_patch) (Some ex_src) (mkSink [] 0).
Proof.
  intro m. assert (Hs : codecs_shrink no_codecs) by (split; intros bs dec rest H; discriminate H).
  rewrite (C94_any_reader_patch _ trickle _ m no_codecs _ (false, c94_patch) c94_patch (Some ex_src) (mkSink [] 0) trickle_delivers Hs (no_ext _ _) eq_refl).
  rewrite (C94_any_reader_patch _ halves _ m no_codecs _ c94_patch c94_patch (Some ex_src) (mkSink [] 0) halves_delivers Hs (no_ext _ _) eq_refl).
  destruct m; (split; [vm_compute; reflexivity|split; [vm_compute; reflexivity|reflexivity]]).
Qed.
(** The toy codec as a streaming decoder: a byte at a time; with the last byte it sees the end of the data. *)
Definition toy_stream : sdec := mkSdec (list Z * bool)
  (mkReader (fun n (s : list Z * bool) => if snd s then Got [] s else match fst s with
    | 0 :: r => Got [] (r, true)
    | 1 :: b :: 0 :: r => Got [b] (r, true)
    | 1 :: b :: r => Got [b] (r, false)
    | _ => Fails EOF
    end) (fun s => length (fst s)))
  (fun bs => Ok (bs, false)) fst snd.
Lemma toy_enc_len (l : list Z) : (length l <= length (flat_map (fun b => [1%Z; b]) l))%nat.
Proof. induction l; cbn [flat_map app length]; lia. Qed.
Lemma toy_stream_rt : stream_rt (brotli_enc toy) toy_stream.
Proof.
  exists (fun t s l => s = (toy_enc 0 l ++ t, false)), (fun t s l => s = match l with [] => (t, true) | _ => (toy_enc 0 l ++ t, false) end).
  split; [intros level x t _; exists (toy_enc 0 x ++ t, false); split; reflexivity|].
  assert (D : forall t l n, 0 < n -> match rd_read (sd_reader toy_stream) n (toy_enc 0 l ++ t, false) with
    | Got bs s' => exists l', l = bs ++ l' /\ zlen bs <= n /\ (bs = [] -> l = []) /\ s' = match l' with [] => (t, true) | _ => (toy_enc 0 l' ++ t, false) end /\ (length bs + length (fst s') <= length (toy_enc 0 l ++ t))%nat
    | _ => False end).
  { intros t l n Hn. unfold toy_enc. destruct l as [|x l]; cbn [flat_map app toy_stream sd_reader rd_read fst snd].
    - exists []. repeat split; cbn; lia.
    - destruct l as [|y l]; cbn [flat_map app].
      + exists []. cbn [length fst]. change (zlen [x]) with 1. repeat split; try lia. discriminate.
      + exists (y :: l). cbn [length fst flat_map app]. change (zlen [x]) with 1. repeat split; try lia. discriminate. }
  split; [|split].
  - intros t s l ->. split; [cbn [toy_stream sd_reader rd_most fst]; unfold toy_enc; rewrite !app_length; pose proof (toy_enc_len l); lia|]. intros n Hn. specialize (D t l n Hn).
    destruct (rd_read (sd_reader toy_stream) n (toy_enc 0 l ++ t, false)) as [bs s'|s'|e]; [exact D|contradiction..].
  - intros t s l ->. destruct l as [|x l].
    + split; [cbn; lia|]. intros n Hn. cbn [toy_stream sd_reader rd_read fst snd]. exists []. repeat split; cbn; lia.
    + set (L := x :: l). split; [cbn [toy_stream sd_reader rd_most fst]; unfold toy_enc; rewrite !app_length; pose proof (toy_enc_len L); lia|]. intros n Hn. specialize (D t L n Hn).
      destruct (rd_read (sd_reader toy_stream) n (toy_enc 0 L ++ t, false)) as [bs s'|s'|e]; [exact D|contradiction..].
  - intros t s ->. auto.
Qed.
Definition c95_cfg : config := ex_cfg Segregated (Some (BrotliComp 5)).
Example C95_example : forall m m', exists patch, encode m toy c95_cfg (Some ex_src) ex_trgt = (patch, Ok tt) /\ comp_streams toy toy_stream toy_stream (cf_comp c95_cfg) /\ ex_trgt <> [] /\
  sbuf (fst (apply_patch_s m' toy_stream toy_stream (patch ++ [1; 2; 3]) (Some ex_src) (mkSink [] 0))) = ex_trgt.
Proof. intros m m'. eexists. split; [destruct m; vm_compute; reflexivity|]. split; [exact toy_stream_rt|]. split; [discriminate|]. destruct m'; vm_compute; reflexivity. Qed.
Example C95_empty_example : forall m m', exists patch, encode m toy c95_cfg (Some ex_src) [] = (patch, Ok tt) /\ (forall bs, exists s, sd_open toy_stream bs = Ok s /\ sd_finished toy_stream s = false) /\
  apply_patch_s m' toy_stream toy_stream patch (Some ex_src) (mkSink [] 0) = (mkSink [] 0, Err InvalidData).
Proof. intros m m'. eexists. split; [destruct m; vm_compute; reflexivity|]. split; [intro bs; eexists; split; reflexivity|]. destruct m'; vm_compute; reflexivity. Qed.
(** The same with a frame header that is read when the decoder is made. *)
Definition toy_zstream : sdec := mkSdec (list Z * bool) (sd_reader toy_stream) (fun bs => do r <- toy_open bs; Ok (r, false)) fst snd.
Example C95_zstd_empty_example : forall m m', exists patch, encode m toy (ex_cfg Interleaved (Some (ZstdComp 3))) (Some ex_src) [] = (patch, Ok tt) /\
  (forall t, exists s, sd_open toy_zstream (zstd_enc toy 3 [] ++ t) = Ok s) /\
  apply_patch_s m' toy_zstream toy_stream (patch ++ [1; 2; 3]) (Some ex_src) (mkSink [7; 8] 0) = (mkSink [7; 8] 0, Ok tt).
Proof. intros m m'. eexists. split; [destruct m; vm_compute; reflexivity|]. split; [intro t; eexists; reflexivity|]. destruct m'; vm_compute; reflexivity. Qed.
Print Assumptions C94_any_reader_section.
Print Assumptions C94_any_reader_patch.
Print Assumptions C95_streaming_roundtrip.
Print Assumptions C95_zstd_empty_target.
Print Assumptions C95_brotli_empty_target_refuted.
