(** Applying patches: refinement of the decoder to the meaning of operations. *)
From Verif Require Import Base Spec MCommon MWriter MReader MDecoder SpecApi PBase PCommon PStream PSection PWriter.

(** ** The sink *)
Definition over (out old : list Z) : list Z := out ++ drop (zlen out) old.

Lemma over_nil out : over out [] = out.
Proof. unfold over, drop. rewrite skipn_nil. apply app_nil_r. Qed.
Lemma over_0 old : over [] old = old.
Proof. reflexivity. Qed.

Lemma sink_write_over out old bs :
  sink_write (mkSink (over out old) (zlen out)) bs = mkSink (over (out ++ bs) old) (zlen (out ++ bs)).
Proof.
  unfold sink_write. cbn [spos sbuf].
  assert (E : rep 0 (zlen out - zlen (over out old)) = []).
  { apply rep_0. unfold over. rewrite zlen_app. pose proof (zlen_nonneg (drop (zlen out) old)). lia. }
  rewrite E, app_nil_r. unfold over at 1 2. rewrite take_app by reflexivity.
  pose proof (zlen_nonneg bs) as Hb. pose proof (zlen_nonneg out) as Ho.
  rewrite drop_app_r by lia. rewrite drop_drop by lia. unfold over. rewrite zlen_app, app_assoc.
  replace (zlen out + (zlen out + zlen bs - zlen out)) with (zlen out + zlen bs) by lia. reflexivity.
Qed.

(** Performing operations while old bytes may still lie behind the output: the output reached and whether all worked. *)
Fixpoint perform (dict old out : list Z) (ops : list op) : list Z * bool :=
  match ops with
  | [] => (out, true)
  | o :: r => match op_bytes dict (over out old) o with
              | Some b => perform dict old (out ++ b) r
              | None => (out, false)
              end
  end.

Definition op_nonneg (o : op) : Prop :=
  match o with Add _ => True | Run _ n => 0 <= n | Copy _ a n => 0 <= a /\ 0 <= n end.
Lemma op_ok_nonneg o : op_ok o -> op_nonneg o.
Proof. intros [Ht Hl]. destruct o; cbn in *; lia. Qed.
Lemma ops_ok_nonneg ops : Forall op_ok ops -> Forall op_nonneg ops.
Proof. apply Forall_impl. exact op_ok_nonneg. Qed.

Lemma read_at_spec l a n : 0 <= a -> 0 <= n -> read_at l a n = if in_range l a n then Ok (sub l a n) else Err EOF.
Proof.
  intros Ha Hn. unfold read_at, read_exact, in_range. rewrite zlen_drop_max. pose proof (zlen_nonneg l).
  destruct ((n =? 0) || (0 <=? a) && (a + n <=? zlen l)) eqn:E.
  - replace (n <=? Z.max 0 (zlen l - Z.max 0 a)) with true by lia. reflexivity.
  - replace (n <=? Z.max 0 (zlen l - Z.max 0 a)) with false by lia. reflexivity.
Qed.

Lemma in_range_sub_len l a n : 0 <= n -> in_range l a n = true -> zlen (sub l a n) = n.
Proof.
  intros Hn H. unfold in_range in H. destruct (n =? 0) eqn:E.
  - assert (n = 0) by lia. subst. rewrite sub_0 by lia. reflexivity.
  - apply zlen_sub; lia.
Qed.

Lemma apply_ops_loop_spec d old : forall ops out, Forall op_nonneg ops ->
  apply_ops_loop (Some d) ops (mkSink (over out old) (zlen out)) (zlen out) =
  let '(out', ok) := perform d old out ops in
  (mkSink (over out' old) (zlen out'), zlen out', if ok then Ok tt else Err EOF).
Proof.
  induction ops as [|x ops IH]; intros out Hn; [reflexivity|].
  apply Forall_cons_iff in Hn as [Hx Hn].
  destruct x as [bs|b n|s a n]; cbn [apply_ops_loop perform op_bytes].
  - rewrite sink_write_over, <- zlen_app. apply IH. exact Hn.
  - rewrite sink_write_over. replace (zlen out + n) with (zlen (out ++ rep b n)).
    + apply IH. exact Hn.
    + rewrite zlen_app, zlen_rep. cbn in Hx. lia.
  - destruct Hx as [Ha Hl]. destruct s.
    + rewrite read_at_spec by assumption. destruct (in_range d a n) eqn:E; [|reflexivity].
      rewrite sink_write_over. replace (zlen out + n) with (zlen (out ++ sub d a n)).
      * apply IH. exact Hn.
      * rewrite zlen_app, in_range_sub_len by assumption. lia.
    + cbn [sbuf]. rewrite read_at_spec by assumption. destruct (in_range (over out old) a n) eqn:E; [|reflexivity].
      unfold sink_seek. cbn [sbuf]. rewrite sink_write_over. replace (zlen out + n) with (zlen (out ++ sub (over out old) a n)).
      * apply IH. exact Hn.
      * rewrite zlen_app, in_range_sub_len by assumption. lia.
Qed.

Lemma apply_ops_spec d old ops out p : Forall op_nonneg ops ->
  apply_ops (Some d) ops (mkSink (over out old) p) (zlen out) =
  let '(out', ok) := perform d old out ops in
  (mkSink (over out' old) (zlen out'), zlen out', if ok then Ok tt else Err EOF).
Proof. intro H. unfold apply_ops, sink_seek. cbn [sbuf]. now apply apply_ops_loop_spec. Qed.

Lemma perform_app d old : forall a b out, perform d old out (a ++ b) =
  let '(o1, ok) := perform d old out a in if ok then perform d old o1 b else (o1, false).
Proof.
  induction a as [|x a IH]; intros b out; [reflexivity|]. cbn [app perform].
  destruct (op_bytes d (over out old) x); [apply IH|reflexivity].
Qed.

Lemma perform_run d : forall ops out,
  perform d [] out ops = match run_ops d out ops with Some o => (o, true) | None => (fst (perform d [] out ops), false) end.
Proof.
  induction ops as [|x ops IH]; intro out; [reflexivity|]. cbn [perform run_ops]. rewrite over_nil.
  destruct (op_bytes d out x); [apply IH|reflexivity].
Qed.
Lemma perform_true d ops out o : perform d [] out ops = (o, true) <-> run_ops d out ops = Some o.
Proof.
  rewrite perform_run. destruct (run_ops d out ops); split; intro H; try discriminate; injection H as <-; reflexivity.
Qed.
Lemma perform_false d ops : forall out o, perform d [] out ops = (o, false) <->
  exists done bad post, ops = done ++ bad :: post /\ run_ops d out done = Some o /\ op_bytes d o bad = None.
Proof.
  induction ops as [|x ops IH]; intros out o; cbn [perform].
  - split; [discriminate|]. intros (dn & bad & post & E & _). destruct dn; discriminate.
  - rewrite over_nil. destruct (op_bytes d out x) as [b|] eqn:E.
    + rewrite IH. split; intros (dn & bad & post & E1 & E2 & E3).
      * exists (x :: dn), bad, post. split; [cbn; congruence|]. split; [cbn; now rewrite E|exact E3].
      * destruct dn as [|y dn].
        -- cbn in E1, E2. injection E1 as <- <-. injection E2 as <-. congruence.
        -- cbn in E1, E2. injection E1 as <- ->. rewrite E in E2. exists dn, bad, post. auto.
    + split.
      * intro H. injection H as <-. exists [], x, ops. auto.
      * intros (dn & bad & post & E1 & E2 & E3). destruct dn as [|y dn].
        -- cbn in E2. injection E2 as <-. reflexivity.
        -- cbn in E1, E2. injection E1 as <- ->. rewrite E in E2. discriminate.
Qed.

Lemma run_ops_app d : forall a b out, run_ops d out (a ++ b) =
  match run_ops d out a with Some o => run_ops d o b | None => None end.
Proof.
  induction a as [|x a IH]; intros b out; [reflexivity|]. cbn [app run_ops].
  destruct (op_bytes d out x); [apply IH|reflexivity].
Qed.

Lemma op_bytes_len d out x b : op_nonneg x -> op_bytes d out x = Some b -> zlen b = op_len x.
Proof.
  intros Hx H. destruct x as [bs|c n|[] a n]; cbn in *.
  - injection H as <-. reflexivity.
  - injection H as <-. rewrite zlen_rep. lia.
  - destruct (in_range d a n) eqn:E; [|discriminate]. injection H as <-. apply in_range_sub_len; tauto.
  - destruct (in_range out a n) eqn:E; [|discriminate]. injection H as <-. apply in_range_sub_len; tauto.
Qed.
Lemma run_ops_len d : forall ops out o, Forall op_nonneg ops -> run_ops d out ops = Some o ->
  zlen o = zlen out + ops_len ops.
Proof.
  induction ops as [|x ops IH]; intros out o Hn H; cbn [run_ops] in H.
  - injection H as <-. cbn. lia.
  - apply Forall_cons_iff in Hn as [Hx Hn]. destruct (op_bytes d out x) as [b|] eqn:E; [|discriminate].
    rewrite (IH _ _ Hn H), zlen_app, (op_bytes_len _ _ _ _ Hx E), ops_len_cons. lia.
Qed.
Lemma run_ops_prefix d : forall ops out o, run_ops d out ops = Some o -> exists t, o = out ++ t.
Proof.
  induction ops as [|x ops IH]; intros out o H; cbn [run_ops] in H.
  - injection H as <-. exists []. now rewrite app_nil_r.
  - destruct (op_bytes d out x) as [b|]; [|discriminate]. destruct (IH _ _ H) as (t & ->).
    exists (b ++ t). now rewrite app_assoc.
Qed.

Lemma op_bytes_over d out old x b : op_bytes d out x = Some b -> op_nonneg x -> op_bytes d (over out old) x = Some b.
Proof.
  intros H Hx. destruct x as [bs|c n|[] a n]; cbn [op_bytes] in *; try exact H.
  destruct (in_range out a n) eqn:E; [|discriminate]. injection H as <-.
  unfold in_range in *. cbn in Hx. destruct (n =? 0) eqn:E0.
  - cbn [orb]. rewrite !sub_0 by lia. reflexivity.
  - cbn [orb] in *. unfold over. rewrite zlen_app. pose proof (zlen_nonneg (drop (zlen out) old)).
    replace ((0 <=? a) && (a + n <=? zlen out + zlen (drop (zlen out) old))) with true by lia.
    f_equal. apply sub_app_l; lia.
Qed.
Lemma perform_old d old : forall ops out o, Forall op_nonneg ops -> run_ops d out ops = Some o ->
  perform d old out ops = (o, true).
Proof.
  induction ops as [|x ops IH]; intros out o Hn H; cbn [run_ops perform] in *.
  - injection H as <-. reflexivity.
  - apply Forall_cons_iff in Hn as [Hx Hn]. destruct (op_bytes d out x) as [b|] eqn:E; [|discriminate].
    rewrite (op_bytes_over _ _ old _ _ E Hx). apply IH; assumption.
Qed.

Lemma op_bytes_byte d out x b : Forall is_byte d -> Forall is_byte out -> op_ok x -> op_bytes d out x = Some b -> Forall is_byte b.
Proof.
  intros Hd Ho [Ht _] H. destruct x as [bs|c n|[] a n]; cbn in *.
  - injection H as <-. exact Ht.
  - injection H as <-. apply Forall_rep. tauto.
  - destruct (in_range d a n); [|discriminate]. injection H as <-. now apply Forall_sub.
  - destruct (in_range out a n); [|discriminate]. injection H as <-. now apply Forall_sub.
Qed.
Lemma perform_bytes d : forall ops out o ok, Forall is_byte d -> Forall is_byte out -> Forall op_ok ops ->
  perform d [] out ops = (o, ok) -> Forall is_byte o.
Proof.
  induction ops as [|x ops IH]; intros out o ok Hd Ho Hok H; cbn [perform] in H.
  - injection H as <- <-. exact Ho.
  - rewrite over_nil in H. apply Forall_cons_iff in Hok as [Hx Hok].
    destruct (op_bytes d out x) as [b|] eqn:E.
    + apply (IH _ _ _ Hd) in H; try assumption. apply Forall_app. split; [assumption|].
      exact (op_bytes_byte _ _ _ _ Hd Ho Hx E).
    + injection H as <- <-. exact Ho.
Qed.

(** Without dictionary *)
Lemma apply_ops_no_dict d : forall ops s pos, forallb (fun o => negb (is_dict_copy o)) ops = true ->
  apply_ops_loop None ops s pos = apply_ops_loop (Some d) ops s pos.
Proof.
  induction ops as [|x ops IH]; intros s pos H; [reflexivity|]. cbn [forallb] in H. apply andb_true_iff in H as [Hx H].
  destruct x as [bs|b n|[] a n]; cbn [apply_ops_loop] in *; try discriminate; try (now apply IH).
  destruct (read_at (sbuf s) a n); try reflexivity. now apply IH.
Qed.

(** ** Streams of sections *)
(** [sec_at tr next b ops more]: the bytes [b] are one section with these operations; with [tr], a truncated section
    is an end-of-file error. *)
Definition sec_at (tr : bool) (next : next_t) (b : list Z) (ops : list op) (more : bool) : Prop :=
  b <> [] /\
  (forall t, exists h, next (b ++ t) = Ok (ops, h, t) /\ h_more h = more) /\
  (tr = true -> forall c1 c2, b = c1 ++ c2 -> c2 <> [] -> next c1 = Err EOF).
(** [stream_of tr next secs bs]: reading from [bs], with anything behind, yields exactly [secs], then stops. *)
Inductive stream_of (tr : bool) (next : next_t) : list (list op) -> list Z -> Prop :=
| so_last ops b : sec_at tr next b ops false -> stream_of tr next [ops] b
| so_more ops b secs bs : sec_at tr next b ops true -> stream_of tr next secs bs -> stream_of tr next (ops :: secs) (b ++ bs).

Lemma nonempty_app_lt {A} (b r : list A) : b <> [] -> (length r < length (b ++ r))%nat.
Proof. intro H. rewrite app_length. destruct b; [contradiction|]. cbn. lia. Qed.

Lemma apply_loop_stream tr next secs bs : stream_of tr next secs bs ->
  forall fuel d old out p t, (length (bs ++ t) < fuel)%nat -> Forall op_nonneg (concat secs) ->
  exists p', apply_loop next fuel (Some d) (bs ++ t) (mkSink (over out old) p) (zlen out) =
  let '(out', ok) := perform d old out (concat secs) in
  (mkSink (over out' old) p', if ok then Ok t else Err EOF).
Proof.
  intro H. induction H as [ops b (Hne & Hn & _)|ops b secs bs (Hne & Hn & _) Hs IH]; intros fuel d old out p t Hf Hnn.
  - destruct fuel as [|k]; [lia|]. cbn [apply_loop]. destruct (Hn t) as (h & -> & Hm).
    cbn [concat] in *. rewrite app_nil_r in *.
    rewrite apply_ops_spec by exact Hnn. destruct (perform d old out ops) as [out' [|]]; cbv iota zeta.
    + rewrite Hm. eexists; reflexivity.
    + eexists; reflexivity.
  - destruct fuel as [|k]; [lia|]. cbn [apply_loop]. rewrite <- app_assoc in *. destruct (Hn (bs ++ t)) as (h & E & Hm). rewrite E.
    cbn [concat] in *. apply Forall_app in Hnn as [Hn1 Hn2].
    pose proof (nonempty_app_lt b (bs ++ t) Hne) as Hlt.
    rewrite apply_ops_spec by exact Hn1. rewrite perform_app.
    destruct (perform d old out ops) as [out' [|]]; cbv iota zeta.
    + rewrite Hm. destruct (IH k d old out' (zlen out') t) as (p' & ->); [lia|exact Hn2|].
      exists p'. destruct (perform d old out' (concat secs)) as [o2 ok]. reflexivity.
    + eexists; reflexivity.
Qed.

(** Truncated streams *)
Lemma apply_loop_trunc next secs bs : stream_of true next secs bs ->
  forall fuel d s pos c1 c2, bs = c1 ++ c2 -> c2 <> [] -> (length c1 < fuel)%nat ->
  snd (apply_loop next fuel (Some d) c1 s pos) = Err EOF.
Proof.
  intro H. induction H as [ops b (Hb0 & Hn & Hp)|ops b secs bs (Hb0 & Hn & Hp) Hs IH]; intros fuel d s pos c1 c2 E Hne Hf;
    specialize (Hp eq_refl).
  - destruct fuel as [|k]; [lia|]. cbn [apply_loop].
    rewrite (Hp c1 c2 E Hne). reflexivity.
  - destruct fuel as [|k]; [lia|]. cbn [apply_loop]. apply app_prefix_cases in E as [(x & Eb & -> & Hx)|(y & -> & ->)].
    + rewrite (Hp c1 x Eb Hx). reflexivity.
    + destruct (Hn y) as (h & Ey & Hm). rewrite Ey.
      pose proof (nonempty_app_lt b y Hb0) as Hlt.
      pose proof (apply_ops_loop_not_diverge (Some d) ops (sink_seek s pos) pos) as Hd.
      assert (Herr : forall ops s pos, match snd (apply_ops_loop (Some d) ops s pos) with Ok _ => True | Err e => e = EOF | _ => False end).
      { assert (R : forall l a n, match read_at l a n with Ok _ => True | Err e => e = EOF | _ => False end).
        { intros l a n. unfold read_at, read_exact. destruct (n <=? zlen (drop a l)); cbn; auto. }
        clear - R. intros ops. induction ops as [|o ops IH]; intros s pos; cbn [apply_ops_loop]; [exact I|].
        destruct o as [bs|b n|[] a n]; try apply IH.
        - pose proof (R d a n) as R'. destruct (read_at d a n); cbn; auto; apply IH.
        - pose proof (R (sbuf s) a n) as R'. destruct (read_at (sbuf s) a n); cbn; auto; apply IH. }
      specialize (Herr ops (sink_seek s pos) pos). unfold apply_ops.
      destruct (apply_ops_loop (Some d) ops (sink_seek s pos) pos) as [[s' pos'] [u|e| |]]; cbn in Herr; try contradiction.
      * rewrite Hm. apply (IH k d s' pos' y c2 eq_refl Hne). lia.
      * subst. reflexivity.
Qed.

(** Bytes behind the last section make no difference. *)
Lemma apply_loop_suffix tr next secs bs : stream_of tr next secs bs ->
  forall fuel fuel' dict s pos t, (length (bs ++ t) < fuel)%nat -> (length bs < fuel')%nat ->
  fst (apply_loop next fuel dict (bs ++ t) s pos) = fst (apply_loop next fuel' dict bs s pos) /\
  match snd (apply_loop next fuel' dict bs s pos) with
  | Ok r => r = [] /\ snd (apply_loop next fuel dict (bs ++ t) s pos) = Ok t
  | x => snd (apply_loop next fuel dict (bs ++ t) s pos) = x
  end.
Proof.
  intro H. induction H as [ops b (Hne & Hn & _)|ops b secs bs (Hne & Hn & _) Hs IH]; intros fuel fuel' dict s pos t Hf Hf'.
  - destruct fuel as [|k]; [lia|]. destruct fuel' as [|k']; [lia|]. cbn [apply_loop].
    destruct (Hn t) as (h & -> & Hm). destruct (Hn []) as (h' & E & Hm'). rewrite app_nil_r in E. rewrite E.
    destruct (apply_ops dict ops s pos) as [[s' pos'] [u|e| |]]; try (split; reflexivity).
    rewrite Hm, Hm'. cbn; auto.
  - destruct fuel as [|k]; [lia|]. destruct fuel' as [|k']; [lia|]. cbn [apply_loop].
    rewrite <- app_assoc. destruct (Hn (bs ++ t)) as (h & E & Hm). destruct (Hn bs) as (h' & E' & Hm'). rewrite E, E'.
    pose proof (nonempty_app_lt b bs Hne). pose proof (nonempty_app_lt b (bs ++ t) Hne). rewrite <- app_assoc in Hf.
    destruct (apply_ops dict ops s pos) as [[s' pos'] [u|e| |]]; try (split; reflexivity).
    rewrite Hm, Hm'. apply IH; lia.
Qed.

(** Without dictionary: reaching a dictionary copy panics. *)
Lemma apply_loop_no_dict tr next d secs bs : stream_of tr next secs bs ->
  forallb (fun o => negb (is_dict_copy o)) (concat secs) = true ->
  forall fuel s pos t, apply_loop next fuel None (bs ++ t) s pos = apply_loop next fuel (Some d) (bs ++ t) s pos.
Proof.
  intro H. induction H as [ops b (Hne & Hn & _)|ops b secs bs (Hne & Hn & _) Hs IH]; intros Hnd fuel s pos t.
  - destruct fuel as [|k]; [reflexivity|]. cbn [apply_loop]. destruct (Hn t) as (h & -> & Hm).
    cbn [concat] in Hnd. rewrite app_nil_r in Hnd. unfold apply_ops.
    rewrite (apply_ops_no_dict d) by exact Hnd. rewrite Hm. reflexivity.
  - destruct fuel as [|k]; [reflexivity|]. cbn [apply_loop]. rewrite <- app_assoc.
    destruct (Hn (bs ++ t)) as (h & -> & Hm). cbn [concat] in Hnd. rewrite forallb_app in Hnd.
    apply andb_true_iff in Hnd as [Hn1 Hn2]. unfold apply_ops. rewrite (apply_ops_no_dict d) by exact Hn1.
    destruct (apply_ops_loop (Some d) ops (sink_seek s pos) pos) as [[s' pos'] [u|e| |]]; try reflexivity.
    rewrite Hm. apply IH. exact Hn2.
Qed.

Lemma apply_ops_loop_None_app : forall pre x post s pos d, forallb (fun o => negb (is_dict_copy o)) pre = true ->
  is_dict_copy x = true ->
  match apply_ops_loop (Some d) pre s pos with
  | (s', _, Ok _) => exists pos', apply_ops_loop None (pre ++ x :: post) s pos = (s', pos', Panic)
  | (s', p', r) => apply_ops_loop None (pre ++ x :: post) s pos = (s', p', r)
  end.
Proof.
  induction pre as [|y pre IH]; intros x post s pos d Hp Hx.
  - cbn. destruct x as [bs|b n|[] a n]; try discriminate. eexists; reflexivity.
  - cbn [forallb] in Hp. apply andb_true_iff in Hp as [Hy Hp]. cbn [app].
    destruct y as [bs|b n|[] a n]; try discriminate; cbn [apply_ops_loop]; try (apply IH; assumption).
    destruct (read_at (sbuf s) a n); try reflexivity. apply IH; assumption.
Qed.

Lemma apply_loop_dict_panic tr next secs bs : stream_of tr next secs bs ->
  forall fuel d old out p t pre x post, (length (bs ++ t) < fuel)%nat -> Forall op_nonneg (concat secs) ->
  concat secs = pre ++ x :: post -> forallb (fun o => negb (is_dict_copy o)) pre = true -> is_dict_copy x = true ->
  exists p', apply_loop next fuel None (bs ++ t) (mkSink (over out old) p) (zlen out) =
  let '(out', ok) := perform d old out pre in
  (mkSink (over out' old) p', if ok then Panic else Err EOF).
Proof.
  intro H. induction H as [ops b (Hne & Hn & _)|ops b secs bs (Hne & Hn & _) Hs IH];
    intros fuel d old out p t pre x post Hf Hnn Ec Hpre Hx.
  - destruct fuel as [|k]; [lia|]. cbn [apply_loop]. destruct (Hn t) as (h & -> & Hm).
    cbn [concat] in *. rewrite app_nil_r in *. subst ops.
    pose proof (apply_ops_loop_None_app pre x post (mkSink (over out old) (zlen out)) (zlen out) d Hpre Hx) as Ha.
    unfold apply_ops, sink_seek. cbn [sbuf]. apply Forall_app in Hnn as [Hnn _].
    rewrite apply_ops_loop_spec in Ha by exact Hnn.
    destruct (perform d old out pre) as [out' [|]]; cbv iota zeta in Ha |- *.
    + destruct Ha as (pos' & ->). eexists; reflexivity.
    + rewrite Ha. eexists; reflexivity.
  - destruct fuel as [|k]; [lia|]. cbn [apply_loop]. rewrite <- app_assoc. destruct (Hn (bs ++ t)) as (h & E & Hm). rewrite E.
    cbn [concat] in *.
    pose proof (nonempty_app_lt b (bs ++ t) Hne) as Hlt. rewrite <- app_assoc in Hf.
    unfold apply_ops, sink_seek. cbn [sbuf].
    apply app_prefix_cases in Ec as [(y & E1 & E2 & Hy)|(y & E1 & E2)].
    + destruct y as [|z y]; [contradiction|]. cbn in E2. injection E2 as <- ->. subst ops.
      pose proof (apply_ops_loop_None_app pre x y (mkSink (over out old) (zlen out)) (zlen out) d Hpre Hx) as Ha.
      rewrite <- app_assoc in Hnn. apply Forall_app in Hnn as [Hnn _].
      rewrite apply_ops_loop_spec in Ha by exact Hnn.
      destruct (perform d old out pre) as [out' [|]]; cbv iota zeta in Ha |- *.
      * destruct Ha as (pos' & ->). eexists; reflexivity.
      * rewrite Ha. eexists; reflexivity.
    + subst pre. rewrite forallb_app in Hpre. apply andb_true_iff in Hpre as [Hp1 Hp2].
      apply Forall_app in Hnn as [Hn1 Hn2].
      rewrite (apply_ops_no_dict d) by exact Hp1. rewrite apply_ops_loop_spec by exact Hn1.
      rewrite perform_app. destruct (perform d old out ops) as [out' [|]]; cbv iota zeta.
      * rewrite Hm. destruct (IH k d old out' (zlen out') t y x post) as (p' & ->); try assumption; [lia|].
        exists p'. destruct (perform d old out' y) as [o2 ok]. reflexivity.
      * eexists; reflexivity.
Qed.

(** ** Failure on arbitrary bytes *)
Definition next_typed_ok (next : next_t) : Prop :=
  forall bs ops h r, Forall is_byte bs -> next bs = Ok (ops, h, r) -> Forall op_ok ops /\ Forall is_byte r.

Lemma apply_loop_outcome next : next_typed_ok next -> forall fuel d out p bs s r, Forall is_byte bs ->
  apply_loop next fuel (Some d) bs (mkSink out p) (zlen out) = (s, r) ->
  exists secs rest, sections_read next bs secs rest /\
  ((match r with
    | Ok t => exists ops h, next rest = Ok (ops, h, t) /\ h_more h = false /\ run_ops d out (concat secs ++ ops) = Some (sbuf s)
    | Err e => next rest = Err e /\ run_ops d out (concat secs) = Some (sbuf s)
    | Panic => next rest = Panic /\ run_ops d out (concat secs) = Some (sbuf s)
    | Diverge => run_ops d out (concat secs) = Some (sbuf s)
    end) \/
   (r = Err EOF /\ exists ops h t done bad post, next rest = Ok (ops, h, t) /\ ops = done ++ bad :: post /\
      run_ops d out (concat secs ++ done) = Some (sbuf s) /\ op_bytes d (sbuf s) bad = None)).
Proof.
  intros Hty. induction fuel as [|k IH]; intros d out p bs s r Hb H; cbn [apply_loop] in H.
  - injection H as <- <-. exists [], bs. split; [constructor|]. left. reflexivity.
  - destruct (next bs) as [[[ops h] rest]|e| |] eqn:E.
    2-4: injection H as <- <-; exists [], bs; (split; [constructor|left; auto]).
    destruct (Hty _ _ _ _ Hb E) as [Hok Hbr].
    pose proof (apply_ops_spec d [] ops out p (ops_ok_nonneg _ Hok)) as Ha. rewrite over_nil in Ha. rewrite Ha in H.
    destruct (perform d [] out ops) as [out' [|]] eqn:Ep; cbv iota zeta in H; rewrite over_nil in H.
    + apply perform_true in Ep. destruct (h_more h) eqn:Hm.
      * destruct (IH _ _ _ _ _ _ Hbr H) as (secs & rest' & Hsr & Hres).
        exists (ops :: secs), rest'. split; [econstructor; eassumption|].
        destruct Hres as [Hres|(-> & ops' & h' & t & dn & bad & post & E1 & E2 & E3 & E4)].
        -- left. destruct r; cbn [concat].
           ++ destruct Hres as (ops' & h' & G1 & G2 & G3). exists ops', h'. rewrite <- app_assoc, run_ops_app, Ep. auto.
           ++ rewrite run_ops_app, Ep. exact Hres.
           ++ rewrite run_ops_app, Ep. exact Hres.
           ++ rewrite run_ops_app, Ep. exact Hres.
        -- right. split; [reflexivity|]. exists ops', h', t, dn, bad, post. cbn [concat].
           rewrite <- app_assoc, run_ops_app, Ep. auto.
      * injection H as <- <-. exists [], bs. split; [constructor|]. left. exists ops, h. cbn. auto.
    + injection H as <- <-. apply perform_false in Ep as (dn & bad & post & E1 & E2 & E3).
      exists [], bs. split; [constructor|]. right. split; [reflexivity|]. exists ops, h, rest, dn, bad, post. cbn. auto.
Qed.
