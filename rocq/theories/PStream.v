(** "Streaming" parsers: what they read is determined by the bytes they consume, and every proper prefix of these
    bytes is an end-of-file error. All readers of the model have this property. *)
From Verif Require Import Base Spec MCommon MWriter MReader MDecoder PBase.

Definition streaming {A} (p : list Z -> res (A * list Z)) : Prop :=
  forall bs v rest, p bs = Ok (v, rest) ->
  exists c, bs = c ++ rest /\ (forall t, p (c ++ t) = Ok (v, t)) /\
            (forall c1 c2, c = c1 ++ c2 -> c2 <> [] -> p c1 = Err EOF).

Lemma streaming_ext {A} (p q : list Z -> res (A * list Z)) :
  (forall bs, p bs = q bs) -> streaming p -> streaming q.
Proof.
  intros E H bs v rest Hq. rewrite <- E in Hq. destruct (H _ _ _ Hq) as (c & -> & Ht & Hp).
  exists c. split; [reflexivity|]. split; intros; rewrite <- E; eauto.
Qed.

Lemma streaming_ret {A} (a : A) : streaming (fun bs => Ok (a, bs)).
Proof.
  intros bs v rest H; injection H as <- <-. exists []. split; [reflexivity|]. split; [reflexivity|].
  intros c1 c2 H Hc. destruct c1; [|discriminate]. cbn in H. congruence.
Qed.
Lemma streaming_fail {A} (r : res (A * list Z)) : (forall x, r <> Ok x) -> streaming (fun _ => r).
Proof. intros H bs v rest E. destruct (H _ E). Qed.

Lemma app_prefix_cases {A} (c d c1 c2 : list A) : c ++ d = c1 ++ c2 ->
  (exists x, c = c1 ++ x /\ c2 = x ++ d /\ x <> []) \/ (exists y, c1 = c ++ y /\ d = y ++ c2).
Proof.
  revert c1; induction c as [|a c IH]; intros c1 H.
  - right. exists c1. auto.
  - destruct c1 as [|b c1].
    + left. exists (a :: c). cbn in H. split; [reflexivity|]. split; [symmetry; exact H|discriminate].
    + cbn in H. injection H as <- H. destruct (IH c1 H) as [(x & -> & -> & Hx)|(y & -> & ->)].
      * left. now exists x.
      * right. now exists y.
Qed.

Lemma streaming_bind {A B} (p : list Z -> res (A * list Z)) (f : A -> list Z -> res (B * list Z)) :
  streaming p -> (forall a, streaming (f a)) -> streaming (fun bs => do (a, r) <- p bs; f a r).
Proof.
  intros Hp Hf bs v rest H. apply bind_ok in H as ([a r] & Ha & Hb).
  destruct (Hp _ _ _ Ha) as (c & -> & Hc & Hce).
  destruct (Hf a _ _ _ Hb) as (d & -> & Hd & Hde).
  exists (c ++ d). split; [now rewrite app_assoc|]. split.
  - intro t. rewrite <- app_assoc, Hc. cbn. apply Hd.
  - intros c1 c2 E Hne. apply app_prefix_cases in E as [(x & Hx & -> & Hxe)|(y & -> & ->)].
    + rewrite (Hce _ _ Hx Hxe). reflexivity.
    + rewrite Hc. cbn. now apply (Hde y c2).
Qed.
Lemma streaming_lift {A B} (r : res A) (f : A -> list Z -> res (B * list Z)) :
  (forall a, streaming (f a)) -> streaming (fun bs => do a <- r; f a bs).
Proof. intro Hf. destruct r; cbn; [apply Hf| | |]; intros bs v rest H; discriminate. Qed.

Lemma streaming_u8 : streaming read_u8.
Proof.
  intros [|b bs] v rest H; cbn in H; [discriminate|]. injection H as <- <-.
  exists [b]. split; [reflexivity|]. split; [reflexivity|].
  intros c1 c2 E Hne. destruct c1 as [|x c1]; [reflexivity|].
  destruct c1; cbn in E; [|discriminate]. injection E as _ E. subst. contradiction.
Qed.
Lemma streaming_u16 : streaming read_u16.
Proof.
  intros [|lo [|hi bs]] v rest H; cbn in H; try discriminate. injection H as <- <-.
  exists [lo; hi]. split; [reflexivity|]. split; [reflexivity|].
  intros c1 c2 E Hne. destruct c1 as [|x [|y c1]]; [reflexivity|reflexivity|].
  destruct c1; cbn in E; [|discriminate]. injection E as _ _ E. subst. contradiction.
Qed.
Lemma streaming_exact n : streaming (read_exact n).
Proof.
  intros bs v rest H. unfold read_exact in H. destruct (n <=? zlen bs) eqn:E; [|discriminate].
  injection H as <- <-. exists (take n bs). split; [symmetry; apply take_drop|].
  destruct (Z.le_gt_cases n 0) as [H0|H0].
  - rewrite (take_0 n bs) by lia. split.
    + intro t. unfold read_exact. replace (n <=? zlen ([] ++ t)) with true by (pose proof (zlen_nonneg ([] ++ t)); lia).
      rewrite take_0, drop_0 by lia. reflexivity.
    + intros c1 c2 H Hne. destruct c1; [|discriminate]. cbn in H; congruence.
  - assert (Hl : zlen (take n bs) = n) by (apply zlen_take; lia). split.
    + intro t. now rewrite read_exact_ok.
    + intros c1 c2 H Hne. unfold read_exact.
      assert (zlen (take n bs) = zlen c1 + zlen c2) by (rewrite H; apply zlen_app).
      assert (zlen c2 <> 0) by (intro; apply Hne, zlen_0; assumption).
      pose proof (zlen_nonneg c2). now replace (n <=? zlen c1) with false by lia.
Qed.
Lemma streaming_u_varint_loop m : forall r s, streaming (read_u_varint_loop m r s).
Proof.
  intros r s bs; revert r s. induction bs as [|b bs IH]; intros r s v rest H; cbn [read_u_varint_loop] in H; [discriminate|].
  apply bind_ok in H as (x & Hx & H). cbv zeta in H.
  destruct (Z.land b 128 =? 0) eqn:E.
  - injection H as <- <-. exists [b]. split; [reflexivity|]. split.
    + intro t. cbn [app read_u_varint_loop]. rewrite Hx. cbn [bind]. now rewrite E.
    + intros c1 c2 Hc Hne. destruct c1 as [|y c1]; [reflexivity|].
      destruct c1; cbn in Hc; [|discriminate]. injection Hc as _ Hc. subst. contradiction.
  - destruct (IH _ _ _ _ H) as (c & -> & Hc & Hce). exists (b :: c). split; [reflexivity|]. split.
    + intro t. cbn [app read_u_varint_loop]. rewrite Hx. cbn [bind]. rewrite E. apply Hc.
    + intros c1 c2 Hc12 Hne. destruct c1 as [|y c1]; [reflexivity|].
      cbn in Hc12. injection Hc12 as <- Hc12. cbn [read_u_varint_loop]. rewrite Hx. cbn [bind]. rewrite E.
      now apply (Hce c1 c2).
Qed.
Lemma streaming_u_varint m : streaming (read_u_varint m).
Proof. apply streaming_u_varint_loop. Qed.
Lemma streaming_i_varint m : streaming (read_i_varint m).
Proof.
  apply (streaming_bind (read_u_varint m) (fun z r => Ok (zigzag_decode z, r))).
  - apply streaming_u_varint.
  - intro z. apply streaming_ret.
Qed.

Ltac stream :=
  repeat match goal with
  | |- forall _, _ => intro
  | |- streaming (fun bs => Ok (_, bs)) => apply streaming_ret
  | |- streaming (fun _ => Err _) => apply streaming_fail; discriminate
  | |- streaming (read_u_varint _) => apply streaming_u_varint
  | |- streaming (read_i_varint _) => apply streaming_i_varint
  | |- streaming read_u8 => apply streaming_u8
  | |- streaming read_u16 => apply streaming_u16
  | |- streaming (read_exact _) => apply streaming_exact
  | |- streaming (fun bs => read_u_varint _ bs) => apply streaming_u_varint
  | |- streaming (fun bs => read_i_varint _ bs) => apply streaming_i_varint
  | |- streaming (fun bs => read_u8 bs) => apply streaming_u8
  | |- streaming (fun bs => read_u16 bs) => apply streaming_u16
  | |- streaming (fun bs => read_exact _ bs) => apply streaming_exact
  | |- streaming (fun bs => bind (Ok (?a, bs)) _) => cbn [bind]
  | |- streaming (fun bs => bind _ _) => first [apply streaming_bind | apply streaming_lift]
  | |- streaming ((fun _ => _) _) => cbv beta
  | |- context[let '(_, _) := ?x in _] => destruct x
  | |- context[if ?b then _ else _] => destruct b
  | |- context[match ?x with _ => _ end] => destruct x
  end.

Lemma streaming_header m : streaming (read_section_header m).
Proof.
  unfold read_section_header.
  apply (streaming_bind read_u8); [apply streaming_u8|intro hb]. cbv zeta.
  apply (streaming_bind (read_u_varint m)); [apply streaming_u_varint|intro n].
  destruct (Z.land hb SECTION_FORMAT_BIT =? SECTION_FORMAT_BIT); cbn [is_segregated].
  - apply (streaming_bind (fun bs => do (a, bs) <- read_u_varint m bs; Ok (to_u32 a, bs))); stream.
  - cbn [bind]. apply (streaming_bind (read_u_varint m)); stream.
Qed.

Lemma streaming_op_byte : streaming read_op_byte.
Proof.
  unfold read_op_byte. apply (streaming_bind read_u8); [apply streaming_u8|intro b]. cbv zeta. stream.
Qed.

Lemma streaming_op m d o i : streaming (read_op m d o i).
Proof.
  unfold read_op. apply (streaming_bind read_op_byte); [apply streaming_op_byte|intros [ot sz]].
  apply streaming_lift. intros _.
  apply (streaming_bind (fun bs => match sz with
                | Done n => Ok (n, bs)
                | U8And62 => do (b, bs) <- read_u8 bs; Ok (b + 62, bs)
                | U16 => read_u16 bs
                end)).
  - destruct sz; stream.
  - intro n. destruct ot as [[]| |].
    + apply (streaming_bind (read_i_varint m)); stream.
    + apply (streaming_bind (read_i_varint m)); stream.
    + destruct i; stream.
    + stream.
Qed.

Lemma streaming_consumes {A} (p : list Z -> res (A * list Z)) bs v rest :
  streaming p -> (forall x, p [] <> Ok x) -> p bs = Ok (v, rest) -> (length rest < length bs)%nat.
Proof.
  intros Hp Hn H. destruct (Hp _ _ _ H) as (c & -> & Hc & _). destruct c as [|b c].
  - exfalso. apply (Hn (v, [])). specialize (Hc []). exact Hc.
  - rewrite app_length. cbn. lia.
Qed.

Lemma read_op_consumes m d o i bs x rest : read_op m d o i bs = Ok (x, rest) -> (length rest < length bs)%nat.
Proof. apply streaming_consumes; [apply streaming_op|]. intros y H; discriminate H. Qed.

Lemma streaming_ops_loop m f : forall k n d o cs nadd, streaming (read_ops_loop k m f n d o cs nadd).
Proof.
  induction k as [|k IH]; intros n d o cs nadd; cbn [read_ops_loop].
  - destruct (n <=? 0); [apply streaming_ret|]. apply streaming_fail; discriminate.
  - destruct (n <=? 0); [apply streaming_ret|].
    apply (streaming_bind (read_op m d o (negb (is_segregated f)))); [apply streaming_op|].
    intros [[op' d'] o'].
    apply streaming_lift. intro cs'. apply streaming_lift. intro nadd'.
    apply (streaming_bind (read_ops_loop k m f (n - 1) d' o' cs' nadd')); [apply IH|].
    intros [[ops cs''] nadd'']. apply streaming_ret.
Qed.

Lemma arith_not_diverge m w v : arith m w v <> Diverge.
Proof. unfold arith. destruct (w v =? v); [discriminate|]. destruct m; discriminate. Qed.

Lemma read_u_varint_loop_not_diverge m bs : forall r s, read_u_varint_loop m r s bs <> Diverge.
Proof.
  induction bs as [|b bs IH]; intros r s; cbn [read_u_varint_loop]; [discriminate|].
  unfold shl_u64. destruct (s <? 64); cbn [bind]; [|destruct m; cbn [bind]; try discriminate];
  (destruct (Z.land b 128 =? 0); [discriminate|apply IH]).
Qed.
Lemma read_i_varint_not_diverge m bs : read_i_varint m bs <> Diverge.
Proof.
  unfold read_i_varint, read_u_varint. pose proof (read_u_varint_loop_not_diverge m bs 0 0).
  destruct (read_u_varint_loop m 0 0 bs) as [[z r]|e| |]; cbn; congruence.
Qed.
Lemma diff_u64_not_diverge m c i : diff_addresses_to_u64 m c i <> Diverge.
Proof.
  unfold diff_addresses_to_u64. destruct (i >=? 0); [discriminate|].
  pose proof (arith_not_diverge m to_i64 (Z.abs i)). destruct (arith m to_i64 (Z.abs i)); cbn; congruence.
Qed.
Lemma read_op_not_diverge m d o i bs : read_op m d o i bs <> Diverge.
Proof.
  unfold read_op, read_op_byte.
  destruct bs as [|b bs]; [discriminate|]. cbn [read_u8 bind].
  assert (Hsz : forall sz : size, match sz with
                | Done n => Ok (n, bs)
                | U8And62 => do (b0, bs0) <- read_u8 bs; Ok (b0 + 62, bs0)
                | U16 => read_u16 bs
                end <> Diverge).
  { intros [n| |]; [discriminate| |]; destruct bs as [|x [|y bs]]; cbn; discriminate. }
  assert (G : forall ot sz, (do _ <- match ot, sz with
          | TRun, Done _ => Ok tt
          | TRun, _ => Err InvalidData
          | _, _ => Ok tt
          end;
  do (n, bs) <- match sz with
                | Done n => Ok (n, bs)
                | U8And62 => do (b, bs) <- read_u8 bs; Ok (b + 62, bs)
                | U16 => read_u16 bs
                end;
  match ot with
  | TCopy s =>
      do (i, bs) <- read_i_varint m bs;
      match s with
      | Dict => do a <- diff_addresses_to_u64 m d i; Ok (Copy Dict a n, a, o, bs)
      | Output => do a <- diff_addresses_to_u64 m o i; Ok (Copy Output a n, d, a, bs)
      end
  | TAdd =>
      if i
      then do (b, bs) <- read_exact n bs; Ok (Add b, d, o, bs)
      else Ok (Add (rep 0 n), d, o, bs)
  | TRun => do (b, bs) <- read_u8 bs; Ok (Run b n, d, o, bs)
  end) <> Diverge).
  { intros ot sz. specialize (Hsz sz).
    destruct (match sz with
                | Done n => Ok (n, bs)
                | U8And62 => do (b0, bs0) <- read_u8 bs; Ok (b0 + 62, bs0)
                | U16 => read_u16 bs
                end) as [[n bs']|e| |]; [|destruct ot as [[]| |], sz; discriminate..|contradiction].
    assert (E : match ot, sz with
          | TRun, Done _ => Ok tt
          | TRun, _ => Err InvalidData
          | _, _ => Ok tt
          end = Ok tt \/ match ot, sz with
          | TRun, Done _ => Ok tt
          | TRun, _ => Err InvalidData
          | _, _ => Ok tt
          end = Err InvalidData) by (destruct ot as [[]| |], sz; auto).
    destruct E as [->| ->]; cbn [bind]; [|discriminate].
    destruct ot as [s| |].
    - pose proof (read_i_varint_not_diverge m bs') as Hi.
      destruct (read_i_varint m bs') as [[j r]|e| |]; cbn [bind]; try discriminate; [|contradiction].
      destruct s.
      + pose proof (diff_u64_not_diverge m d j). destruct (diff_addresses_to_u64 m d j); cbn; congruence.
      + pose proof (diff_u64_not_diverge m o j). destruct (diff_addresses_to_u64 m o j); cbn; congruence.
    - destruct i; [|discriminate]. unfold read_exact. destruct (n <=? zlen bs'); cbn; discriminate.
    - destruct bs' as [|x bs']; cbn; discriminate. }
  repeat match goal with |- context[if ?c then Ok _ else _] => destruct c; [apply G|] end.
  discriminate.
Qed.

Lemma read_ops_loop_not_diverge m f : forall k n d o cs nadd bs, (length bs < k)%nat ->
  read_ops_loop k m f n d o cs nadd bs <> Diverge.
Proof.
  induction k as [|k IH]; intros n d o cs nadd bs Hk; [lia|]. cbn [read_ops_loop].
  destruct (n <=? 0); [discriminate|].
  pose proof (read_op_not_diverge m d o (negb (is_segregated f)) bs) as Hop.
  destruct (read_op m d o (negb (is_segregated f)) bs) as [[[[x d'] o'] rest]|e| |] eqn:E; cbn [bind]; try discriminate; [|contradiction].
  apply read_op_consumes in E.
  pose proof (arith_not_diverge m to_u32 (cs + oal x)). destruct (arith m to_u32 (cs + oal x)) as [cs'|?| |]; cbn [bind]; try congruence.
  set (nr := if is_segregated f && is_add x then arith m to_u32 (nadd + oal x) else Ok nadd).
  assert (nr <> Diverge) by (subst nr; destruct (is_segregated f && is_add x); [apply arith_not_diverge|discriminate]).
  destruct nr as [nadd'|?| |]; cbn [bind]; try congruence.
  specialize (IH (n - 1) d' o' cs' nadd' rest ltac:(lia)).
  destruct (read_ops_loop k m f (n - 1) d' o' cs' nadd' rest) as [[[[? ?] ?] ?]|?| |]; cbn [bind]; congruence.
Qed.

Lemma read_ops_loop_mono m f : forall k k' n d o cs nadd bs, (k <= k')%nat ->
  read_ops_loop k m f n d o cs nadd bs <> Diverge ->
  read_ops_loop k' m f n d o cs nadd bs = read_ops_loop k m f n d o cs nadd bs.
Proof.
  induction k as [|k IH]; intros k' n d o cs nadd bs Hk H.
  - cbn [read_ops_loop] in *. destruct (n <=? 0) eqn:E; [|contradiction].
    destruct k'; cbn [read_ops_loop]; now rewrite E.
  - destruct k' as [|k']; [lia|]. cbn [read_ops_loop] in *. destruct (n <=? 0); [reflexivity|].
    destruct (read_op m d o (negb (is_segregated f)) bs) as [[[[x d'] o'] rest]|e| |]; cbn [bind] in *; try reflexivity.
    destruct (arith m to_u32 (cs + oal x)) as [cs'|?| |]; cbn [bind] in *; try reflexivity.
    destruct (if is_segregated f && is_add x then arith m to_u32 (nadd + oal x) else Ok nadd) as [nadd'|?| |]; cbn [bind] in *; try reflexivity.
    rewrite (IH k'); [reflexivity|lia|]. intro Hd. now rewrite Hd in H.
Qed.

Lemma read_ops_loop_fuel m f k k' n d o cs nadd bs : (length bs < k')%nat ->
  read_ops_loop k m f n d o cs nadd bs <> Diverge ->
  read_ops_loop k' m f n d o cs nadd bs = read_ops_loop k m f n d o cs nadd bs.
Proof.
  intros Hk' H. destruct (Nat.le_gt_cases k k') as [Hle|Hgt].
  - now apply read_ops_loop_mono.
  - symmetry. apply read_ops_loop_mono; [lia|]. now apply read_ops_loop_not_diverge.
Qed.

Lemma streaming_fuel {A} (p : nat -> list Z -> res (A * list Z)) :
  (forall k, streaming (p k)) ->
  (forall k k' bs, (length bs < k')%nat -> p k bs <> Diverge -> p k' bs = p k bs) ->
  streaming (fun bs => p (S (length bs)) bs).
Proof.
  intros Hs Hf bs v rest H. destruct (Hs _ _ _ _ H) as (c & -> & Hc & Hce).
  exists c. split; [reflexivity|]. split.
  - intro t. rewrite (Hf (S (length (c ++ rest)))); [apply Hc|lia|rewrite Hc; discriminate].
  - intros c1 c2 E Hne. rewrite (Hf (S (length (c ++ rest)))); [now apply (Hce c1 c2)|lia|].
    rewrite (Hce c1 c2) by assumption. discriminate.
Qed.

Lemma streaming_fill_adds ops : streaming (fill_adds ops).
Proof.
  induction ops as [|o ops IH]; cbn [fill_adds]; [apply streaming_ret|].
  destruct o.
  - apply (streaming_bind (read_exact (zlen bs))); [apply streaming_exact|intro b].
    apply (streaming_bind (fill_adds ops)); [exact IH|intro]. apply streaming_ret.
  - apply (streaming_bind (fill_adds ops)); [exact IH|intro]. apply streaming_ret.
  - apply (streaming_bind (fill_adds ops)); [exact IH|intro]. apply streaming_ret.
Qed.

Lemma streaming_read_ops m h : streaming (read_ops_no_comp m h).
Proof.
  unfold read_ops_no_comp.
  apply (streaming_bind (fun bs => read_ops_loop (S (length bs)) m (h_format h) (h_nops h) 0 0 0 (h_nadd h) bs)).
  - apply (streaming_fuel (fun k bs => read_ops_loop k m (h_format h) (h_nops h) 0 0 0 (h_nadd h) bs)).
    + intro k. apply streaming_ops_loop.
    + intros k k' bs. apply read_ops_loop_fuel.
  - intros [[ops cs] nadd]. destruct (negb (cs =? h_osize h)); [apply streaming_fail; discriminate|].
    destruct (h_format h); [apply streaming_ret|].
    apply (streaming_bind (fill_adds ops)); [apply streaming_fill_adds|]. intro. apply streaming_ret.
Qed.

Lemma streaming_section m : streaming (read_section m).
Proof.
  apply (streaming_bind (read_section_header m)); [apply streaming_header|]. intro h. apply streaming_read_ops.
Qed.

(** ** The section loop of the decoder *)
Definition apply_loop_p next k dict s pos bs : res (sink * list Z) :=
  match apply_loop next k dict bs s pos with
  | (s', Ok r) => Ok (s', r)
  | (_, Err e) => Err e
  | (_, Panic) => Panic
  | (_, Diverge) => Diverge
  end.

Lemma apply_loop_S next k dict s pos bs :
  apply_loop_p next (S k) dict s pos bs =
  do (x, rest) <- next bs;
  match apply_ops dict (fst x) s pos with
  | (s', pos', Ok _) => if h_more (snd x) then apply_loop_p next k dict s' pos' rest else Ok (s', rest)
  | (_, _, Err e) => Err e
  | (_, _, Panic) => Panic
  | (_, _, Diverge) => Diverge
  end.
Proof.
  unfold apply_loop_p. cbn [apply_loop].
  destruct (next bs) as [[[ops h] rest]|e| |]; cbn [bind fst snd]; try reflexivity.
  destruct (apply_ops dict ops s pos) as [[s' pos'] [u|e| |]]; try reflexivity.
  destruct (h_more h); reflexivity.
Qed.

Lemma streaming_apply_loop next : streaming next -> forall k dict s pos, streaming (apply_loop_p next k dict s pos).
Proof.
  intro Hn. induction k as [|k IH]; intros dict s pos.
  - intros bs v rest H. discriminate H.
  - apply (streaming_ext _ _ (fun bs => eq_sym (apply_loop_S next k dict s pos bs))).
    apply (streaming_bind next); [exact Hn|]. intros [ops h]. cbn [fst snd].
    destruct (apply_ops dict ops s pos) as [[s' pos'] [u|e| |]]; try (apply streaming_fail; discriminate).
    destruct (h_more h); [apply IH|apply streaming_ret].
Qed.

Lemma apply_ops_loop_not_diverge dict ops : forall s pos, snd (apply_ops_loop dict ops s pos) <> Diverge.
Proof.
  assert (R : forall l a n, read_at l a n <> Diverge).
  { intros l a n. unfold read_at, read_exact. destruct (n <=? zlen (drop a l)); cbn; discriminate. }
  induction ops as [|o ops IH]; intros s pos; cbn [apply_ops_loop]; [discriminate|].
  destruct o as [bs|b n|[] a n]; try apply IH.
  - destruct dict as [d|]; [|discriminate]. specialize (R d a n).
    destruct (read_at d a n); try discriminate; [apply IH|contradiction].
  - specialize (R (sbuf s) a n). destruct (read_at (sbuf s) a n); try discriminate; [apply IH|contradiction].
Qed.

Lemma apply_loop_mono next : forall k k' dict s pos bs, (k <= k')%nat ->
  snd (apply_loop next k dict bs s pos) <> Diverge ->
  apply_loop next k' dict bs s pos = apply_loop next k dict bs s pos.
Proof.
  induction k as [|k IH]; intros k' dict s pos bs Hk H; [cbn in H; contradiction|].
  destruct k' as [|k']; [lia|]. cbn [apply_loop] in *.
  destruct (next bs) as [[[ops h] rest]|e| |]; try reflexivity.
  destruct (apply_ops dict ops s pos) as [[s' pos'] [u|e| |]]; try reflexivity.
  destruct (h_more h); [|reflexivity]. apply IH; [lia|exact H].
Qed.
Lemma apply_loop_irrel next : streaming next -> (forall x, next [] <> Ok x) -> forall k k' dict s pos bs, (length bs < k)%nat -> (length bs < k')%nat ->
  apply_loop next k' dict bs s pos = apply_loop next k dict bs s pos.
Proof.
  intros Hstream Hnil. induction k as [|k IH]; intros k' dict s pos bs Hk Hk'; [lia|].
  destruct k' as [|k']; [lia|]. cbn [apply_loop].
  destruct (next bs) as [[[ops h] rest]|e| |] eqn:E; try reflexivity.
  assert (length rest < length bs)%nat by (apply (streaming_consumes next bs (ops, h)); assumption).
  destruct (apply_ops dict ops s pos) as [[s' pos'] [u|e| |]]; try reflexivity.
  destruct (h_more h); [|reflexivity]. apply IH; lia.
Qed.
Lemma apply_loop_fuel next : streaming next -> (forall x, next [] <> Ok x) -> forall k k' dict s pos bs, (length bs < k')%nat ->
  snd (apply_loop next k dict bs s pos) <> Diverge ->
  apply_loop next k' dict bs s pos = apply_loop next k dict bs s pos.
Proof.
  intros Hstream Hnil k k' dict s pos bs Hk' H. destruct (Nat.le_gt_cases k k') as [Hle|Hgt].
  - now apply apply_loop_mono.
  - apply apply_loop_irrel; try assumption; lia.
Qed.
Lemma apply_loop_not_diverge next : streaming next -> (forall x, next [] <> Ok x) -> (forall bs, next bs <> Diverge) -> forall k dict s pos bs, (length bs < k)%nat ->
  snd (apply_loop next k dict bs s pos) <> Diverge.
Proof.
  intros Hstream Hnil Hd. induction k as [|k IH]; intros dict s pos bs Hk; [lia|]. cbn [apply_loop].
  pose proof (Hd bs) as Hdb.
  destruct (next bs) as [[[ops h] rest]|e| |] eqn:E; try (cbn; congruence).
  assert (length rest < length bs)%nat by (apply (streaming_consumes next bs (ops, h)); assumption).
  pose proof (apply_ops_loop_not_diverge dict ops (sink_seek s pos) pos) as Ha. unfold apply_ops.
  destruct (apply_ops_loop dict ops (sink_seek s pos) pos) as [[s' pos'] [u|e| |]]; cbn [snd] in Ha |- *; try congruence.
  destruct (h_more h); [|discriminate]. apply IH; lia.
Qed.

Lemma streaming_apply next dict s pos : streaming next -> (forall x, next [] <> Ok x) ->
  streaming (fun bs => apply_loop_p next (S (length bs)) dict s pos bs).
Proof.
  intros Hs Hn. apply (streaming_fuel (fun k bs => apply_loop_p next k dict s pos bs)).
  - intro k. now apply streaming_apply_loop.
  - intros k k' bs Hk H. unfold apply_loop_p in *.
    rewrite (apply_loop_fuel next Hs Hn k k'); [reflexivity|exact Hk|].
    destruct (apply_loop next k dict bs s pos) as [s' [r|e| |]]; cbn; congruence.
Qed.

Lemma read_section_nil m x : read_section m [] <> Ok x.
Proof. discriminate. Qed.

Lemma streaming_next_section m cd :
  streaming (zstd_dec cd) -> streaming (brotli_dec cd) -> streaming (next_section m cd).
Proof.
  intros Hz Hb. unfold next_section. apply (streaming_bind (read_section_header m)); [apply streaming_header|].
  intro h. destruct (h_comp h =? 1).
  - apply (streaming_ext (fun bs => do (s, rest) <- apply_loop_p (read_section m) (S (length bs)) None (mkSink [] 0) 0 bs;
      do (ops, h', _) <- read_ops_no_comp m h (sbuf s); Ok (ops, h', rest))).
    + intro bs. unfold apply_loop_p, apply_no_sec_comp.
      destruct (apply_loop (read_section m) (S (length bs)) None bs (mkSink [] 0) 0) as [s [r|e| |]]; reflexivity.
    + apply (streaming_bind (fun bs => apply_loop_p (read_section m) (S (length bs)) None (mkSink [] 0) 0 bs)).
      * apply streaming_apply; [apply streaming_section|apply read_section_nil].
      * intro s. destruct (read_ops_no_comp m h (sbuf s)) as [[[ops h'] r]|e| |]; cbn [bind];
          [apply streaming_ret|apply streaming_fail; discriminate..].
  - destruct (h_comp h =? 2).
    + apply (streaming_bind (zstd_dec cd)); [exact Hz|]. intro dec.
      destruct (read_ops_no_comp m h dec) as [[[ops h'] r]|e| |]; cbn [bind];
          [apply streaming_ret|apply streaming_fail; discriminate..].
    + destruct (h_comp h =? 3).
      * apply (streaming_bind (brotli_dec cd)); [exact Hb|]. intro dec.
        destruct (read_ops_no_comp m h dec) as [[[ops h'] r]|e| |]; cbn [bind];
          [apply streaming_ret|apply streaming_fail; discriminate..].
      * apply streaming_read_ops.
Qed.
