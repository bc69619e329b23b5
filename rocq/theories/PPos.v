(** The decoder over a BufReader does what it does over the bytes still to be read. *)
From Verif Require Import Base Spec SpecEnc MCommon MWriter MReader MDecoder MOpMaker MTrgtMatcher MSrcMatcher MEncInner MEncode MPos SpecApi PBase PStream.
Ltac Zify.zify_post_hook ::= idtac.
Arguments Z.add : simpl never.
Arguments Z.sub : simpl never.
Arguments Z.mul : simpl never.
Arguments Z.pow : simpl never.

Definition exhausted (b : brd) : Prop := ahead (b_in b) = [].
Definition binv (b : brd) : Prop := zlen (b_buf b) <= BUF_CAP /\ 0 <= rpos (b_in b) <= zlen (rbuf (b_in b)).
Definition bok (b b' : brd) (rest : list Z) : Prop :=
  b_ahead b' = rest /\ binv b' /\ rbuf (b_in b') = rbuf (b_in b) /\ (exhausted b -> exhausted b').
Definition bsim {A} (p : list Z -> res (A * list Z)) (q : brd -> res (A * brd)) : Prop := forall b, binv b ->
  match p (b_ahead b) with
  | Ok (v, rest) => exists b', q b = Ok (v, b') /\ bok b b' rest
  | Err e => q b = Err e
  | Panic => q b = Panic
  | Diverge => q b = Diverge
  end.
Lemma bok_refl b : binv b -> bok b b (b_ahead b).
Proof. intro H. split; [reflexivity|]. auto. Qed.
Lemma bok_trans b b1 b2 r1 r2 : bok b b1 r1 -> bok b1 b2 r2 -> bok b b2 r2.
Proof. intros (A1 & A2 & A3 & A4) (B1 & B2 & B3 & B4). split; [exact B1|]. split; [exact B2|]. split; [congruence|auto]. Qed.
Lemma bok_inv b b' r : bok b b' r -> binv b'.
Proof. intros (_ & H & _). exact H. Qed.

Lemma zlen_ahead r : 0 <= rpos r <= zlen (rbuf r) -> zlen (ahead r) = zlen (rbuf r) - rpos r.
Proof. intro H. unfold ahead. rewrite zlen_drop by lia. lia. Qed.
Lemma ahead_move r n : 0 <= n -> 0 <= rpos r -> ahead (mkRdr (rbuf r) (rpos r + n)) = drop n (ahead r).
Proof. intros Hn Hp. unfold ahead. cbn [rbuf rpos]. now rewrite drop_drop by lia. Qed.
Lemma sim_exact_pos n : 0 <= n -> bsim (read_exact n) (b_read_exact n).
Proof.
  intros Hn b [Hc Hp]. unfold read_exact, b_read_exact, b_ahead. pose proof (zlen_ahead _ Hp) as Hz. rewrite zlen_app. pose proof (zlen_nonneg (b_buf b)). pose proof (zlen_nonneg (ahead (b_in b))).
  destruct (Z.leb_spec n (zlen (b_buf b))) as [Hl|Hl].
  - destruct (Z.leb_spec n (zlen (b_buf b) + zlen (ahead (b_in b)))); [|lia]. eexists. rewrite take_app_l by lia. split; [reflexivity|]. rewrite drop_app_l by lia.
    split; [reflexivity|]. split; [split; [cbn [b_buf]; rewrite zlen_drop by lia; lia|exact Hp]|]. split; [reflexivity|auto].
  - destruct (Z.leb_spec n (zlen (b_buf b) + zlen (ahead (b_in b)))) as [Hr|Hr].
    + destruct (Z.gtb_spec (n - zlen (b_buf b)) (zlen (ahead (b_in b)))); [lia|]. rewrite take_app_r by lia. rewrite drop_app_r by lia. destruct (Z.geb_spec (n - zlen (b_buf b)) BUF_CAP) as [Hg|Hg].
      * eexists. split; [reflexivity|]. split; [unfold b_ahead; cbn [b_buf b_in app]; apply ahead_move; lia|]. split; [split; cbn [b_buf b_in rbuf rpos]; [rewrite (@zlen_nil Z); unfold BUF_CAP; lia|lia]|]. split; [reflexivity|].
        unfold exhausted. cbn [b_in]. intro E. rewrite E in *. rewrite (@zlen_nil Z) in *. lia.
      * eexists. split; [reflexivity|]. pose proof (zlen_nonneg (take BUF_CAP (ahead (b_in b)))) as Hk.
        assert (Ek : zlen (take BUF_CAP (ahead (b_in b))) = Z.min BUF_CAP (zlen (ahead (b_in b)))) by (apply zlen_take_min; unfold BUF_CAP; lia).
        split.
        { unfold b_ahead. cbn [b_buf b_in]. rewrite ahead_move by lia. rewrite Ek. set (l := ahead (b_in b)) in *. set (k := n - zlen (b_buf b)) in *.
          transitivity (drop k (take BUF_CAP l ++ drop BUF_CAP l)); [|now rewrite take_drop]. rewrite drop_app_l by lia. f_equal. destruct (Z.le_gt_cases BUF_CAP (zlen l)); [rewrite Z.min_l by lia; reflexivity|].
          rewrite Z.min_r by lia. rewrite !drop_all by lia. reflexivity. }
        split; [split; cbn [b_buf b_in rbuf rpos]; [rewrite zlen_drop by lia; lia|lia]|]. split; [reflexivity|].
        unfold exhausted. cbn [b_in]. intro E. rewrite E in *. rewrite (@zlen_nil Z) in *. lia.
    + destruct (Z.gtb_spec (n - zlen (b_buf b)) (zlen (ahead (b_in b)))); [reflexivity|lia].
Qed.

Lemma sim_exact n : bsim (read_exact n) (b_read_exact n).
Proof.
  destruct (Z.le_gt_cases 0 n) as [H|H]; [apply sim_exact_pos; exact H|]. intros b Hb. unfold read_exact, b_read_exact. pose proof (zlen_nonneg (b_buf b)). pose proof (zlen_nonneg (b_ahead b)).
  destruct (Z.leb_spec n (zlen (b_ahead b))); [|lia]. destruct (Z.leb_spec n (zlen (b_buf b))); [|lia]. unfold take, drop. replace (Z.to_nat n) with 0%nat by lia. cbn [firstn skipn].
  destruct b as [bf i]. cbn [b_buf b_in]. exists (mkB bf i). split; [reflexivity|apply bok_refl; exact Hb].
Qed.

Ltac bsimpl := cbn [bind fst snd].
(** One reading step: [L] is a [bsim] fact, [b] the state, [Hb] its invariant. *)
Tactic Notation "bstep" constr(L) "at" ident(b) "with" ident(Hb) "as" simple_intropattern(pat) ident(b1) ident(K) ident(Hb1) :=
  let H := fresh "H" in pose proof (L b Hb) as H;
  match type of H with match ?x with _ => _ end => destruct x as pat end;
  [ destruct H as (b1 & H & K); rewrite H; clear H; bsimpl; pose proof (bok_inv _ _ _ K) as Hb1; let E := fresh "E" in pose proof (proj1 K) as E; subst
  | rewrite H; reflexivity | rewrite H; reflexivity | rewrite H; reflexivity ].
Lemma sim_u8 : bsim read_u8 b_read_u8.
Proof.
  intros b Hb. unfold b_read_u8. pose proof (sim_exact 1 b Hb) as H. unfold read_exact in H. unfold read_u8. destruct (b_ahead b) as [|x l] eqn:E.
  - rewrite (@zlen_nil Z) in H. cbn [Z.leb] in H. change (1 <=? 0) with false in H. cbv iota in H. rewrite H. reflexivity.
  - replace (1 <=? zlen (x :: l)) with true in H by (rewrite zlen_cons; pose proof (zlen_nonneg l); lia). destruct H as (b' & -> & K). change (take 1 (x :: l)) with [x]. bsimpl. exists b'. split; [reflexivity|exact K].
Qed.
Lemma sim_u16 : bsim read_u16 b_read_u16.
Proof.
  intros b Hb. unfold b_read_u16. pose proof (sim_exact 2 b Hb) as H. unfold read_exact in H. unfold read_u16. destruct (b_ahead b) as [|x [|y l]] eqn:E.
  - change (2 <=? zlen (@nil Z)) with false in H. cbv iota in H. rewrite H. reflexivity.
  - change (2 <=? zlen [x]) with false in H. cbv iota in H. rewrite H. reflexivity.
  - replace (2 <=? zlen (x :: y :: l)) with true in H by (rewrite !zlen_cons; pose proof (zlen_nonneg l); lia). destruct H as (b' & -> & K). change (take 2 (x :: y :: l)) with [x; y]. bsimpl. exists b'. split; [reflexivity|exact K].
Qed.
Lemma sim_varint_loop m : forall fuel l b res sh, binv b -> b_ahead b = l -> (length l < fuel)%nat ->
  match read_u_varint_loop m res sh l with
  | Ok (v, rest) => exists b', b_varint_loop fuel m res sh b = Ok (v, b') /\ bok b b' rest
  | Err e => b_varint_loop fuel m res sh b = Err e
  | Panic => b_varint_loop fuel m res sh b = Panic
  | Diverge => b_varint_loop fuel m res sh b = Diverge
  end.
Proof.
  induction fuel as [|k IH]; intros l b res sh Hb E Hf; [lia|]. cbn [b_varint_loop]. pose proof (sim_u8 b Hb) as H. rewrite E in H. destruct l as [|x l]; cbn [read_u8 read_u_varint_loop] in *.
  - rewrite H. reflexivity.
  - destruct H as (b1 & -> & K). bsimpl. destruct (shl_u64 m (Z.land x 127) sh) as [v|e| |]; bsimpl; try reflexivity. destruct (Z.land x 128 =? 0); [exists b1; auto|].
    specialize (IH l b1 (Z.lor res v) (sh + 7) (bok_inv _ _ _ K) (proj1 K) ltac:(cbn [length] in Hf; lia)). destruct (read_u_varint_loop m (Z.lor res v) (sh + 7) l) as [[v' r']|e| |]; try exact IH.
    destruct IH as (b2 & E2 & K2). exists b2. split; [exact E2|exact (bok_trans _ _ _ _ _ K K2)].
Qed.
Lemma sim_u_varint m : bsim (read_u_varint m) (b_read_u_varint m).
Proof. intros b Hb. unfold read_u_varint, b_read_u_varint. apply sim_varint_loop; [exact Hb|reflexivity|lia]. Qed.
Lemma sim_i_varint m : bsim (read_i_varint m) (b_read_i_varint m).
Proof.
  intros b Hb. unfold read_i_varint, b_read_i_varint. bstep (sim_u_varint m) at b with Hb as [[z r]|e| |] b1 K Hb1. exists b1. auto.
Qed.
Lemma sim_header m : bsim (read_section_header m) (b_read_section_header m).
Proof.
  intros b Hb. unfold read_section_header, b_read_section_header. bstep sim_u8 at b with Hb as [[hb r]|e| |] b1 K1 Hb1.
  bstep (sim_u_varint m) at b1 with Hb1 as [[n r]|e| |] b2 K2 Hb2. pose proof (bok_trans _ _ _ _ _ K1 K2) as K. set (f := if Z.land hb SECTION_FORMAT_BIT =? SECTION_FORMAT_BIT then Segregated else Interleaved).
  destruct (is_segregated f).
  - bstep (sim_u_varint m) at b2 with Hb2 as [[a r]|e| |] b3 K3 Hb3. bstep (sim_u_varint m) at b3 with Hb3 as [[s r]|e| |] b4 K4 Hb4.
    destruct (arith m to_u32 (to_u32 a + to_u32 s)) as [o|e| |]; bsimpl; try reflexivity. exists b4. split; [reflexivity|]. exact (bok_trans _ _ _ _ _ K (bok_trans _ _ _ _ _ K3 K4)).
  - bsimpl. bstep (sim_u_varint m) at b2 with Hb2 as [[s r]|e| |] b4 K4 Hb4. exists b4. split; [reflexivity|]. exact (bok_trans _ _ _ _ _ K K4).
Qed.
Lemma sim_op_byte : bsim read_op_byte b_read_op_byte.
Proof.
  intros b Hb. unfold read_op_byte, b_read_op_byte. bstep sim_u8 at b with Hb as [[x r]|e| |] b1 K1 Hb1.
  destruct (Z.land x OP_MASK =? COPY_D); [exists b1; auto|]. destruct (Z.land x OP_MASK =? COPY_O); [exists b1; auto|]. destruct (Z.land x OP_MASK =? ADD); [exists b1; auto|].
  destruct (Z.land x OP_MASK =? RUN); [exists b1; auto|reflexivity].
Qed.

Definition bsim4 {A B C} (p : list Z -> res (A * B * C * list Z)) (q : brd -> res (A * B * C * brd)) : Prop := forall b, binv b ->
  match p (b_ahead b) with
  | Ok (v, w, x, rest) => exists b', q b = Ok (v, w, x, b') /\ bok b b' rest
  | Err e => q b = Err e
  | Panic => q b = Panic
  | Diverge => q b = Diverge
  end.
Lemma sim_size sz : bsim (fun bs => match sz with Done n => Ok (n, bs) | U8And62 => do (b, bs) <- read_u8 bs; Ok (b + 62, bs) | U16 => read_u16 bs end)
  (fun bs => match sz with Done n => Ok (n, bs) | U8And62 => do (b, bs) <- b_read_u8 bs; Ok (b + 62, bs) | U16 => b_read_u16 bs end).
Proof.
  intros b Hb. cbv beta. destruct sz as [n| |].
  - exists b. split; [reflexivity|apply bok_refl; exact Hb].
  - bstep sim_u8 at b with Hb as [[x r]|e| |] b1 K1 Hb1. exists b1. auto.
  - apply sim_u16. exact Hb.
Qed.
Lemma sim_op m d o il : bsim4 (read_op m d o il) (b_read_op m d o il).
Proof.
  intros b Hb. unfold read_op, b_read_op. pose proof (sim_op_byte b Hb) as H. destruct (read_op_byte (b_ahead b)) as [[[ot sz] r]|e| |]; try (rewrite H; reflexivity). destruct H as (b1 & -> & K1). bsimpl.
  assert (E : (match ot, sz with TRun, Done _ => Ok tt | TRun, _ => Err InvalidData | _, _ => Ok tt end = Ok tt) \/ (match ot, sz with TRun, Done _ => Ok tt | TRun, _ => Err InvalidData | _, _ => Ok tt end = Err InvalidData)) by (destruct ot, sz; auto).
  destruct E as [-> | ->]; bsimpl; [|reflexivity]. pose proof (proj1 K1) as <-. pose proof (bok_inv _ _ _ K1) as Hb1.
  pose proof (sim_size sz b1 Hb1) as H. cbv beta in H.
  destruct (match sz with Done n => Ok (n, b_ahead b1) | U8And62 => do (b, bs) <- read_u8 (b_ahead b1); Ok (b + 62, bs) | U16 => read_u16 (b_ahead b1) end) as [[n r]|e| |]; try (rewrite H; reflexivity). destruct H as (b2 & -> & K2). bsimpl.
  pose proof (proj1 K2) as <-. pose proof (bok_inv _ _ _ K2) as Hb2. pose proof (bok_trans _ _ _ _ _ K1 K2) as K. destruct ot as [[|]| |].
  - bstep (sim_i_varint m) at b2 with Hb2 as [[i r]|e| |] b3 K3 Hb3. destruct (diff_addresses_to_u64 m d i); bsimpl; try reflexivity. exists b3. split; [reflexivity|exact (bok_trans _ _ _ _ _ K K3)].
  - bstep (sim_i_varint m) at b2 with Hb2 as [[i r]|e| |] b3 K3 Hb3. destruct (diff_addresses_to_u64 m o i); bsimpl; try reflexivity. exists b3. split; [reflexivity|exact (bok_trans _ _ _ _ _ K K3)].
  - destruct il; [|exists b2; auto]. bstep (sim_exact n) at b2 with Hb2 as [[i r]|e| |] b3 K3 Hb3. exists b3. split; [reflexivity|exact (bok_trans _ _ _ _ _ K K3)].
  - bstep sim_u8 at b2 with Hb2 as [[i r]|e| |] b3 K3 Hb3. exists b3. split; [reflexivity|exact (bok_trans _ _ _ _ _ K K3)].
Qed.
Lemma sim_ops_loop m f : forall fuel n d o cs na, bsim4 (read_ops_loop fuel m f n d o cs na) (b_read_ops_loop fuel m f n d o cs na).
Proof.
  induction fuel as [|k IH]; intros n d o cs na b Hb; cbn [read_ops_loop b_read_ops_loop]; (destruct (n <=? 0); [exists b; split; [reflexivity|apply bok_refl; exact Hb]|]); [reflexivity|].
  pose proof (sim_op m d o (negb (is_segregated f)) b Hb) as H. destruct (read_op m d o (negb (is_segregated f)) (b_ahead b)) as [[[[x d'] o'] r]|e| |]; try (rewrite H; reflexivity). destruct H as (b1 & -> & K1). bsimpl.
  pose proof (proj1 K1) as <-. pose proof (bok_inv _ _ _ K1) as Hb1.
  destruct (arith m to_u32 (cs + oal x)) as [cs'|e| |]; bsimpl; try reflexivity.
  destruct (if is_segregated f && is_add x then arith m to_u32 (na + oal x) else Ok na) as [na'|e| |]; bsimpl; try reflexivity.
  specialize (IH (n - 1) d' o' cs' na' b1 Hb1). destruct (read_ops_loop k m f (n - 1) d' o' cs' na' (b_ahead b1)) as [[[[l c2] n2] r]|e| |]; try (rewrite IH; reflexivity). destruct IH as (b2 & -> & K2). bsimpl. exists b2. split; [reflexivity|exact (bok_trans _ _ _ _ _ K1 K2)].
Qed.
Lemma sim_fill : forall ops, bsim (fill_adds ops) (b_fill_adds ops).
Proof.
  induction ops as [|o ops IH]; intros b Hb; cbn [fill_adds b_fill_adds]; [exists b; split; [reflexivity|apply bok_refl; exact Hb]|].
  destruct o as [bs|x n|s a n].
  - bstep (sim_exact (zlen bs)) at b with Hb as [[i r]|e| |] b1 K1 Hb1. bstep IH at b1 with Hb1 as [[l r]|e| |] b2 K2 Hb2. exists b2. split; [reflexivity|exact (bok_trans _ _ _ _ _ K1 K2)].
  - bstep IH at b with Hb as [[l r]|e| |] b2 K2 Hb2. exists b2. auto.
  - bstep IH at b with Hb as [[l r]|e| |] b2 K2 Hb2. exists b2. auto.
Qed.
Definition bsim3 {A B} (p : list Z -> res (A * B * list Z)) (q : brd -> res (A * B * brd)) : Prop := forall b, binv b ->
  match p (b_ahead b) with
  | Ok (v, w, rest) => exists b', q b = Ok (v, w, b') /\ bok b b' rest
  | Err e => q b = Err e
  | Panic => q b = Panic
  | Diverge => q b = Diverge
  end.
Lemma sim_ops_no_comp m h : bsim3 (read_ops_no_comp m h) (b_read_ops_no_comp m h).
Proof.
  intros b Hb. unfold read_ops_no_comp, b_read_ops_no_comp. pose proof (sim_ops_loop m (h_format h) (S (length (b_ahead b))) (h_nops h) 0 0 0 (h_nadd h) b Hb) as H.
  destruct (read_ops_loop (S (length (b_ahead b))) m (h_format h) (h_nops h) 0 0 0 (h_nadd h) (b_ahead b)) as [[[[l c2] n2] r]|e| |]; try (rewrite H; reflexivity). destruct H as (b1 & -> & K1). bsimpl.
  destruct (negb (c2 =? h_osize h)); [reflexivity|]. destruct (h_format h); [exists b1; auto|]. pose proof (proj1 K1) as <-. pose proof (bok_inv _ _ _ K1) as Hb1.
  bstep (sim_fill l) at b1 with Hb1 as [[l' r]|e| |] b2 K2 Hb2. exists b2. split; [reflexivity|exact (bok_trans _ _ _ _ _ K1 K2)].
Qed.
Lemma sim_section m : bsim3 (read_section m) (b_read_section m).
Proof.
  intros b Hb. unfold read_section, b_read_section. bstep (sim_header m) at b with Hb as [[h r]|e| |] b1 K1 Hb1.
  pose proof (sim_ops_no_comp m h b1 Hb1) as H. destruct (read_ops_no_comp m h (b_ahead b1)) as [[[l h'] r]|e| |]; try (rewrite H; reflexivity). destruct H as (b2 & -> & K2). exists b2. split; [reflexivity|exact (bok_trans _ _ _ _ _ K1 K2)].
Qed.
Lemma sim_apply_loop m : forall fuel b s pos, binv b ->
  match apply_loop (read_section m) fuel None (b_ahead b) s pos with
  | (s', Ok rest) => exists b', b_apply_loop m fuel b s pos = (s', Ok b') /\ bok b b' rest
  | (s', Err e) => b_apply_loop m fuel b s pos = (s', Err e)
  | (s', Panic) => b_apply_loop m fuel b s pos = (s', Panic)
  | (s', Diverge) => b_apply_loop m fuel b s pos = (s', Diverge)
  end.
Proof.
  induction fuel as [|k IH]; intros b s pos Hb; cbn [apply_loop b_apply_loop]; [reflexivity|].
  pose proof (sim_section m b Hb) as H. destruct (read_section m (b_ahead b)) as [[[l h] r]|e| |]; try (rewrite H; reflexivity). destruct H as (b1 & -> & K1).
  destruct (apply_ops None l s pos) as [[s' p'] [u|e| |]]; try reflexivity. destruct (h_more h); [|exists b1; auto].
  pose proof (proj1 K1) as <-. specialize (IH b1 s' p' (bok_inv _ _ _ K1)). destruct (apply_loop (read_section m) k None (b_ahead b1) s' p') as [s2 [r|e| |]]; try exact IH.
  destruct IH as (b2 & E2 & K2). exists b2. split; [exact E2|exact (bok_trans _ _ _ _ _ K1 K2)].
Qed.
(** What the theorems assume of an external decoder: it takes some bytes and leaves the rest. *)
Definition leaves_rest (dec : list Z -> res (list Z * list Z)) : Prop := forall bs v rest, dec bs = Ok (v, rest) -> exists c, bs = c ++ rest.
Lemma sim_decoded dec : leaves_rest dec -> bsim dec (fun b => b_decoded b (dec (b_ahead b))).
Proof.
  intros Hd b Hb. unfold b_decoded. destruct (dec (b_ahead b)) as [[v rest]|e| |] eqn:E; bsimpl; try reflexivity. destruct (Hd _ _ _ E) as (c & Ec).
  replace (zlen (b_ahead b) - zlen rest) with (zlen c) by (rewrite Ec, zlen_app; lia). pose proof (sim_exact (zlen c) b Hb) as H. unfold read_exact in H. pose proof (zlen_nonneg rest).
  assert (El : zlen c <= zlen (b_ahead b)) by (rewrite Ec, zlen_app; lia). destruct (Z.leb_spec (zlen c) (zlen (b_ahead b))); [|lia]. destruct H as (b1 & -> & K). bsimpl. exists b1. split; [reflexivity|].
  rewrite Ec in K. rewrite drop_app in K by reflexivity. exact K.
Qed.
Definition codecs_rest (cd : codecs) : Prop := leaves_rest (zstd_dec cd) /\ leaves_rest (brotli_dec cd).
Lemma sim_next m cd : codecs_rest cd -> bsim3 (next_section m cd) (b_next_section m cd).
Proof.
  intros [Hz Hbr] b Hb. unfold next_section, b_next_section. bstep (sim_header m) at b with Hb as [[h r]|e| |] b1 K1 Hb1.
  destruct (h_comp h =? 1); [|destruct (h_comp h =? 2); [|destruct (h_comp h =? 3)]].
  - unfold apply_no_sec_comp. pose proof (sim_apply_loop m (S (length (b_ahead b1))) b1 (mkSink [] 0) 0 Hb1) as H.
    destruct (apply_loop (read_section m) (S (length (b_ahead b1))) None (b_ahead b1) (mkSink [] 0) 0) as [s [r|e| |]]; try (rewrite H; reflexivity). destruct H as (b2 & -> & K2).
    destruct (read_ops_no_comp m h (sbuf s)) as [[[l h'] x]|e| |]; bsimpl; try reflexivity. exists b2. split; [reflexivity|exact (bok_trans _ _ _ _ _ K1 K2)].
  - pose proof (sim_decoded _ Hz b1 Hb1) as H. cbv beta in H. destruct (zstd_dec cd (b_ahead b1)) as [[d r]|e| |]; try (rewrite H; reflexivity). destruct H as (b2 & -> & K2). bsimpl.
    destruct (read_ops_no_comp m h d) as [[[l h'] x]|e| |]; bsimpl; try reflexivity. exists b2. split; [reflexivity|exact (bok_trans _ _ _ _ _ K1 K2)].
  - pose proof (sim_decoded _ Hbr b1 Hb1) as H. cbv beta in H. destruct (brotli_dec cd (b_ahead b1)) as [[d r]|e| |]; try (rewrite H; reflexivity). destruct H as (b2 & -> & K2). bsimpl.
    destruct (read_ops_no_comp m h d) as [[[l h'] x]|e| |]; bsimpl; try reflexivity. exists b2. split; [reflexivity|exact (bok_trans _ _ _ _ _ K1 K2)].
  - pose proof (sim_ops_no_comp m h b1 Hb1) as H. destruct (read_ops_no_comp m h (b_ahead b1)) as [[[l h'] x]|e| |]; try (rewrite H; reflexivity). destruct H as (b2 & -> & K2). exists b2. split; [reflexivity|exact (bok_trans _ _ _ _ _ K1 K2)].
Qed.
(** With at most a buffer's worth in front of the reader the first read takes all of it. *)
Lemma first_fill i x b' : zlen (ahead i) <= BUF_CAP -> 0 <= rpos i <= zlen (rbuf i) -> b_read_u8 (mkB [] i) = Ok (x, b') -> exhausted b'.
Proof.
  intros Hz Hp. unfold b_read_u8, b_read_exact, exhausted. cbn [b_buf b_in]. change (1 <=? zlen (@nil Z)) with false. cbv iota. rewrite (@zlen_nil Z). change (1 - 0) with 1. destruct (1 >? zlen (ahead i)); [discriminate|].
  change (1 >=? BUF_CAP) with false. cbv iota. bsimpl. destruct ([] ++ take 1 (ahead i)) as [|v l]; [discriminate|]. intro H. injection H as -> <-. cbn [b_in].
  rewrite ahead_move; [|apply zlen_nonneg|lia]. unfold take. rewrite firstn_all2 by (unfold zlen, BUF_CAP in *; lia). apply drop_all. lia.
Qed.
Lemma first_section m cd i x b' : codecs_rest cd -> zlen (ahead i) <= BUF_CAP -> 0 <= rpos i <= zlen (rbuf i) -> b_next_section m cd (mkB [] i) = Ok (x, b') -> exhausted b'.
Proof.
  intros Hcd Hz Hp H.
  assert (Hb : binv (mkB [] i)) by (split; cbn [b_buf b_in]; [rewrite (@zlen_nil Z); unfold BUF_CAP; lia|exact Hp]).
  unfold b_next_section, b_read_section_header in H. pose proof (sim_u8 (mkB [] i) Hb) as H8. destruct (read_u8 (b_ahead (mkB [] i))) as [[v r]|e| |]; try (rewrite H8 in H; discriminate H).
  destruct H8 as (b1 & E1 & K1). pose proof (first_fill _ _ _ Hz Hp E1) as X1. pose proof (proj1 K1) as Er. pose proof (bok_inv _ _ _ K1) as Hb1.
  (* the rest keeps it exhausted: the same section read from [b1] *)
  rewrite E1 in H. cbn [bind] in H.
  assert (EX : forall A (p : list Z -> res (A * list Z)) q, bsim p q -> forall b y b2, binv b -> q b = Ok (y, b2) -> bok b b2 (b_ahead b2)).
  { intros A p q Hs b y b2 Hb0 E. specialize (Hs b Hb0). destruct (p (b_ahead b)) as [[w z]|e| |]; try congruence. destruct Hs as (b3 & E3 & K3). rewrite E3 in E. injection E as -> ->. pose proof (proj1 K3) as <-. exact K3. }
  assert (HX : forall A (p : list Z -> res (A * list Z)) q, bsim p q -> forall b y b2, binv b -> exhausted b -> q b = Ok (y, b2) -> binv b2 /\ exhausted b2).
  { intros A p q Hs b y b2 Hb0 X0 E. pose proof (EX _ _ _ Hs _ _ _ Hb0 E) as (_ & HA & _ & HB). auto. }
  apply bind_ok in H as ([h b2] & H & H').
  assert (X2 : binv b2 /\ exhausted b2).
  { apply bind_ok in H as ([n c2] & E2 & H). pose proof (HX _ _ _ (sim_u_varint m) _ _ _ Hb1 X1 E2) as [I2 J2].
    apply bind_ok in H as ([na c3] & E3 & H).
    assert (X3 : binv c3 /\ exhausted c3).
    { destruct (is_segregated _); [|injection E3 as _ <-; auto]. apply bind_ok in E3 as ([a c4] & E4 & E3). injection E3 as _ <-. exact (HX _ _ _ (sim_u_varint m) _ _ _ I2 J2 E4). }
    apply bind_ok in H as ([s c4] & E4 & H). pose proof (HX _ _ _ (sim_u_varint m) _ _ _ (proj1 X3) (proj2 X3) E4) as X4. apply bind_ok in H as (o & _ & H). injection H as _ <-. exact X4. }
  destruct X2 as [I2 J2]. destruct (h_comp h =? 1); [|destruct (h_comp h =? 2); [|destruct (h_comp h =? 3)]].
  - pose proof (sim_apply_loop m (S (length (b_ahead b2))) b2 (mkSink [] 0) 0 I2) as L.
    destruct (apply_loop (read_section m) (S (length (b_ahead b2))) None (b_ahead b2) (mkSink [] 0) 0) as [s [r'|e| |]]; try (rewrite L in H'; discriminate H').
    destruct L as (b3 & E3 & K3). rewrite E3 in H'. apply bind_ok in H' as ([[l h'] y] & _ & H'). injection H' as _ <-. apply K3. exact J2.
  - apply bind_ok in H' as ([d b3] & E3 & H'). apply bind_ok in H' as ([[l h'] y] & _ & H'). injection H' as _ <-. exact (proj2 (HX _ _ _ (sim_decoded _ (proj1 Hcd)) _ _ _ I2 J2 E3)).
  - apply bind_ok in H' as ([d b3] & E3 & H'). apply bind_ok in H' as ([[l h'] y] & _ & H'). injection H' as _ <-. exact (proj2 (HX _ _ _ (sim_decoded _ (proj2 Hcd)) _ _ _ I2 J2 E3)).
  - pose proof (sim_ops_no_comp m h b2 I2) as L. destruct (read_ops_no_comp m h (b_ahead b2)) as [[[l h'] y]|e| |]; try congruence. destruct L as (b3 & E3 & K3). rewrite E3 in H'. injection H' as _ <-. apply K3. exact J2.
Qed.
