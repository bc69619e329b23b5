(** Proofs about smdiff-merger's transcoder. *)
From Verif Require Import Base Spec MCommon MWriter MReader MDecoder MOpMaker MEncode MMerger MTranscoder SpecEnc SpecApi SpecMerge PBase PStream PSection PWriter PDecoder PPatch POpMaker PEncode PMerge PMerge2 PMerge3 PMerge4.
Ltac Zify.zify_post_hook ::= idtac.
Arguments Z.add : simpl never.
Arguments Z.sub : simpl never.
Arguments Z.mul : simpl never.
Arguments Z.pow : simpl never.

(** ** Applying a patch depends only on the atoms of its operations *)
Notation atom := (Z + csrc * Z * Z)%type.
Fixpoint eperf (dict : option (list Z)) (old out : list Z) (l : list atom) : list Z * res unit :=
  match l with
  | [] => (out, Ok tt)
  | inl b :: r => eperf dict old (out ++ [b]) r
  | inr (Dict, a, n) :: r => match dict with
                             | None => (out, Panic)
                             | Some d => if in_range d a n then eperf dict old (out ++ sub d a n) r else (out, Err EOF)
                             end
  | inr (Output, a, n) :: r => if in_range (over out old) a n then eperf dict old (out ++ sub (over out old) a n) r else (out, Err EOF)
  end.
Lemma eperf_lits dict old : forall bs out r, eperf dict old out (map inl bs ++ r) = eperf dict old (out ++ bs) r.
Proof.
  induction bs as [|b bs IH]; intros out r; cbn [map app eperf]; [now rewrite app_nil_r|]. rewrite IH, <- app_assoc. reflexivity.
Qed.
Lemma eperf_app dict old : forall a b out, eperf dict old out (a ++ b) = let '(o, r) := eperf dict old out a in match r with Ok _ => eperf dict old o b | _ => (o, r) end.
Proof.
  induction a as [|[x|[[[] a'] n]] a IH]; intros b out; cbn [app eperf]; [reflexivity|apply IH| |].
  - destruct dict as [d|]; [|reflexivity]. destruct (in_range d a' n); [apply IH|reflexivity].
  - destruct (in_range (over out old) a' n); [apply IH|reflexivity].
Qed.
Lemma apply_ops_atoms dict old : forall ops out, Forall op_nonneg ops ->
  apply_ops_loop dict ops (mkSink (over out old) (zlen out)) (zlen out) =
  let '(out', r) := eperf dict old out (atoms ops) in (mkSink (over out' old) (zlen out'), zlen out', r).
Proof.
  unfold atoms. induction ops as [|x ops IH]; intros out Hn; [reflexivity|]. inversion Hn as [|? ? H1 H2]; subst.
  assert (HL : forall bs, apply_ops_loop dict ops (sink_write (mkSink (over out old) (zlen out)) bs) (zlen out + zlen bs) =
     let '(out', r) := eperf dict old (out ++ bs) (flat_map (fun o => match o with Add bs => map inl bs | Run b n => map inl (rep b n) | Copy s a n => [inr (s, a, n)] end) ops) in
     (mkSink (over out' old) (zlen out'), zlen out', r)).
  { intro bs. rewrite sink_write_over. rewrite <- zlen_app. now apply IH. }
  cbn [apply_ops_loop flat_map]. destruct x as [bs|b n|[] a n]; cbn [op_nonneg] in H1.
  - rewrite eperf_lits. apply HL.
  - rewrite eperf_lits. rewrite <- HL. rewrite zlen_rep, Z.max_r by lia. reflexivity.
  - cbn [app eperf]. destruct dict as [d|]; [|reflexivity]. rewrite read_at_spec by lia. destruct (in_range d a n) eqn:E; [|reflexivity].
    rewrite <- HL. now rewrite in_range_sub_len by (auto; lia).
  - cbn [app eperf sbuf]. rewrite read_at_spec by lia. destruct (in_range (over out old) a n) eqn:E; [|reflexivity]. unfold sink_seek. cbn [sbuf].
    rewrite <- HL. now rewrite in_range_sub_len by (auto; lia).
Qed.
Lemma apply_loop_atoms next dict old : forall bs secs r, patch_read next bs secs r -> forall fuel p out, (length secs <= fuel)%nat -> Forall op_nonneg (concat (map fst secs)) ->
  apply_loop next fuel dict bs (mkSink (over out old) p) (zlen out) =
  let '(out', rr) := eperf dict old out (atoms (concat (map fst secs))) in (mkSink (over out' old) (zlen out'), do _ <- rr; Ok r).
Proof.
  intros bs secs r H. induction H as [bs ops h r E Hm|bs ops h r secs r' E Hm Hp IH]; intros fuel p out Hf Hn; (destruct fuel as [|k]; [cbn in Hf; lia|]);
    cbn [apply_loop map fst concat] in *; rewrite E; unfold apply_ops, sink_seek; cbn [sbuf].
  - rewrite app_nil_r in *. rewrite apply_ops_atoms by exact Hn. destruct (eperf dict old out (atoms ops)) as [o [[]| | |]]; cbn [bind]; try reflexivity. now rewrite Hm.
  - apply Forall_app in Hn as [H1 H2]. rewrite apply_ops_atoms by exact H1. unfold atoms in *. rewrite flat_map_app, eperf_app.
    destruct (eperf dict old out (flat_map _ ops)) as [o [[]| | |]]; cbn [bind]; try reflexivity. rewrite Hm. rewrite IH by (try exact H2; cbn in Hf; lia). reflexivity.
Qed.
Lemma apply_patch_atoms m cd patch dict old p secs r : codecs_shrink cd -> patch_read (next_section m cd) patch secs r -> Forall op_nonneg (concat (map fst secs)) ->
  apply_patch m cd patch dict (mkSink old p) =
  let '(out, rr) := eperf dict old [] (atoms (concat (map fst secs))) in (mkSink (over out old) (zlen out), rr).
Proof.
  intros Hc Hp Hn. unfold apply_patch. pose proof (patch_read_len m cd Hc _ _ _ Hp).
  pose proof (apply_loop_atoms _ dict old _ _ _ Hp (S (length patch)) p [] ltac:(lia) Hn) as E. rewrite over_0 in E. change (zlen (@nil Z)) with 0 in E. rewrite E.
  destruct (eperf dict old [] (atoms (concat (map fst secs)))) as [o [[]| | |]]; reflexivity.
Qed.

(** ** Joining and converting *)
Definition iatoms (l : list iop) : list atom :=
  flat_map (fun o => match o with IAdd bs => map inl bs | IRun b n _ => map inl (rep b n) | ICopy s a n => [inr (s, a, n)] end) l.
Definition wtA (n : Z) : Z := if n <=? 0 then 0 else if n <=? 65535 then 1 else 2.
Definition wtR (n : Z) : Z := if n <=? 0 then 0 else if n <=? 62 then 1 else 2.
Definition wt (o : iop) : Z := match o with IAdd bs => wtA (zlen bs) | IRun _ n _ => wtR n | ICopy _ _ _ => 1 end.
Definition wts (l : list iop) : Z := fold_right (fun o s => wt o + s) 0 l.
(** Bounds on the parts: [A] for literals, [R] for runs. *)
Definition iok (A R : Z) (o : iop) : Prop :=
  match o with
  | IAdd bs => Forall is_byte bs /\ zlen bs <= A
  | IRun b n p => is_byte b /\ 0 <= n <= R
  | ICopy s a n => 0 <= a < 2 ^ 64 /\ 0 <= n <= 65535
  end.
Lemma iok_mono A A' R R' o : A <= A' -> R <= R' -> iok A R o -> iok A' R' o.
Proof. intros H1 H2. destruct o; cbn; intuition lia. Qed.

Lemma to_inner_ok : forall ops p, Forall op_ok ops -> iatoms (map to_inner (number p ops)) = atoms ops /\ Forall (iok 65535 62) (map to_inner (number p ops)) /\
  wts (map to_inner (number p ops)) <= zlen ops.
Proof.
  induction ops as [|o ops IH]; intros p H; cbn [number map]; [split; [reflexivity|split; [constructor|cbn; unfold zlen; cbn; lia]]|]. inversion H as [|? ? [H1 H1'] H2]; subst.
  destruct (IH (p + op_len o) H2) as (I1 & I2 & I3). unfold iatoms, atoms, wts in *. cbn [flat_map fold_right]. rewrite I1. split; [|split].
  - destruct o as [|?|]; reflexivity.
  - constructor; [|exact I2]. destruct o as [|?|]; cbn in *; intuition lia.
  - rewrite zlen_cons. destruct o as [bs|b n|s a n]; cbn in *; unfold wtA, wtR; [destruct (zlen bs <=? 0), (zlen bs <=? 65535) eqn:?|destruct (n <=? 0), (n <=? 62) eqn:?|]; lia.
Qed.

Lemma join_adds_ok A R : 65535 <= A -> A <= 65536 -> forall n l, (length l <= n)%nat -> Forall (iok 65535 R) l ->
  iatoms (join_adds l) = iatoms l /\ Forall (iok 131069 R) (join_adds l) /\ wts (join_adds l) <= wts l /\ zlen (join_adds l) = zlen l.
Proof.
  intros _ _. induction n as [|n IH]; intros l Hl H; [destruct l; [|cbn in Hl; lia]; cbn [join_adds join_runs]; repeat split; try constructor; try (cbn; lia)|].
  assert (G : forall x rest, l = x :: rest -> join_adds l = x :: join_adds rest ->
    iatoms (join_adds l) = iatoms l /\ Forall (iok 131069 R) (join_adds l) /\ wts (join_adds l) <= wts l /\ zlen (join_adds l) = zlen l).
  { intros x rest -> ->. inversion H as [|? ? H1 H2]; subst. destruct (IH rest ltac:(cbn in Hl; lia) H2) as (I1 & I2 & I3 & I4).
    unfold iatoms, wts in *. cbn [flat_map fold_right]. rewrite I1, !zlen_cons, I4. split; [reflexivity|]. split; [|split; lia].
    constructor; [|exact I2]. eapply iok_mono; [| |exact H1]; lia. }
  destruct l as [|x rest]; [cbn [join_adds join_runs]; repeat split; try constructor; try (cbn; lia)|].
  destruct x as [a|s c k|b k p]; try (eapply G; reflexivity). destruct rest as [|y rest]; [eapply G; reflexivity|].
  destruct y as [b|s c k|b k p]; try (eapply G; reflexivity). clear G. cbn [join_adds].
  inversion H as [|? ? Ha H']; subst. inversion H' as [|? ? Hb H2]; subst. destruct (IH rest ltac:(cbn in Hl; lia) H2) as (I1 & I2 & I3 & I4).
  cbn [iok] in Ha, Hb. unfold MAX_INST_SIZE. pose proof (zlen_nonneg a). pose proof (zlen_nonneg b). destruct (negb (zlen b =? 0) && (zlen a <? 65535)) eqn:E;
    unfold iatoms, wts in *; cbn [flat_map fold_right wt]; rewrite I1, !zlen_cons, I4.
  - split; [rewrite map_app, <- app_assoc; reflexivity|]. split; [|split; [|lia]].
    + constructor; [cbn; rewrite zlen_app; split; [apply Forall_app; split; [apply Ha|apply Hb]|lia]|]. constructor; [split; [constructor|unfold zlen; cbn; lia]|exact I2].
    + rewrite zlen_app. change (zlen (@nil Z)) with 0. unfold wtA. destruct (zlen a + zlen b <=? 0) eqn:?, (zlen a <=? 0) eqn:?, (zlen b <=? 0) eqn:?, (0 <=? 0) eqn:?, (zlen a + zlen b <=? 65535) eqn:?, (zlen a <=? 65535) eqn:?, (zlen b <=? 65535) eqn:?; lia.
  - split; [reflexivity|]. split; [|split; lia]. constructor; [cbn; split; [apply Ha|lia]|]. constructor; [cbn; split; [apply Hb|lia]|exact I2].
Qed.
Lemma join_runs_ok A : forall n l, (length l <= n)%nat -> Forall (iok A 62) l ->
  iatoms (join_runs l) = iatoms l /\ Forall (iok A 124) (join_runs l) /\ wts (join_runs l) <= wts l.
Proof.
  induction n as [|n IH]; intros l Hl H; [destruct l; [|cbn in Hl; lia]; cbn [join_adds join_runs]; repeat split; try constructor; try (cbn; lia)|].
  assert (G : forall x rest, l = x :: rest -> join_runs l = x :: join_runs rest ->
    iatoms (join_runs l) = iatoms l /\ Forall (iok A 124) (join_runs l) /\ wts (join_runs l) <= wts l).
  { intros x rest -> ->. inversion H as [|? ? H1 H2]; subst. destruct (IH rest ltac:(cbn in Hl; lia) H2) as (I1 & I2 & I3).
    unfold iatoms, wts in *. cbn [flat_map fold_right]. rewrite I1. split; [reflexivity|]. split; [|lia].
    constructor; [|exact I2]. eapply iok_mono; [| |exact H1]; lia. }
  destruct l as [|x rest]; [cbn [join_adds join_runs]; repeat split; try constructor; try (cbn; lia)|].
  destruct x as [a|s c k|b k p]; try (eapply G; reflexivity). destruct rest as [|y rest]; [eapply G; reflexivity|].
  destruct y as [b2|s c k2|b2 k2 p2]; try (eapply G; reflexivity). clear G. cbn [join_runs].
  inversion H as [|? ? Ha H']; subst. inversion H' as [|? ? Hb H2]; subst. destruct (IH rest ltac:(cbn in Hl; lia) H2) as (I1 & I2 & I3).
  cbn [iok] in Ha, Hb. destruct (b =? b2) eqn:E; unfold iatoms, wts in *; cbn [flat_map fold_right wt]; rewrite I1.
  - assert (b2 = b) by lia. subst b2. split; [|split].
    + rewrite <- (rep_app b k k2) by lia. rewrite map_app. rewrite (rep_0 b 0) by lia. rewrite <- app_assoc. reflexivity.
    + constructor; [cbn; split; [apply Ha|lia]|]. constructor; [cbn; split; [apply Hb|lia]|exact I2].
    + unfold wtR. destruct (k + k2 <=? 0) eqn:?, (k <=? 0) eqn:?, (k2 <=? 0) eqn:?, (0 <=? 0) eqn:?, (k + k2 <=? 62) eqn:?, (k <=? 62) eqn:?, (k2 <=? 62) eqn:?; lia.
  - split; [reflexivity|]. split; [|lia]. constructor; [cbn; split; [apply Ha|lia]|]. constructor; [cbn; split; [apply Hb|lia]|exact I2].
Qed.

Lemma lits_atoms d : forall ops bytes, forallb (fun o => negb (is_copy o)) ops = true -> Forall op_ok ops -> run_ops d [] ops = Some bytes -> atoms ops = map inl bytes.
Proof.
  assert (G : forall ops out bytes, forallb (fun o => negb (is_copy o)) ops = true -> Forall op_ok ops -> run_ops d out ops = Some bytes -> map inl out ++ atoms ops = map inl bytes).
  { induction ops as [|o ops IH]; intros out bytes Hf Hok H; cbn [run_ops] in H.
    - injection H as <-. apply app_nil_r.
    - cbn [forallb] in Hf. apply andb_true_iff in Hf as [Hf1 Hf]. inversion Hok; subst. unfold atoms in *. cbn [flat_map].
      destruct o as [bs|b n|]; try discriminate; cbn [op_bytes] in H; apply IH in H; auto; rewrite map_app, <- app_assoc in H; exact H. }
  intros ops bytes Hf Hok H. now apply (G ops [] bytes) in H.
Qed.
Lemma add_chunks_count : forall fuel bytes ops, (length bytes <= fuel)%nat -> zlen bytes <= 131070 -> add_chunks fuel bytes = Ok ops -> zlen ops = wtA (zlen bytes).
Proof.
  intros fuel bytes ops Hf Hl H. pose proof (zlen_nonneg bytes).
  assert (E0 : forall k, add_chunks k [] = Ok []) by (intros []; reflexivity).
  assert (E1 : forall k (b : list Z), (length b <= k)%nat -> 0 < zlen b <= 65535 -> add_chunks k b = Ok [Add b]).
  { intros k b Hk Hb. destruct k as [|k]; [destruct b; [unfold zlen in Hb; cbn in Hb; lia|cbn in Hk; lia]|]. cbn [add_chunks]. replace (zlen b =? 0) with false by lia. unfold MAX_INST_SIZE.
    replace (Z.min (zlen b) 65535) with (zlen b) by lia. rewrite drop_all, take_all by lia. rewrite E0. reflexivity. }
  unfold wtA. destruct (zlen bytes <=? 0) eqn:Ea.
  - assert (bytes = []) by (apply zlen_0; lia). subst. rewrite E0 in H. injection H as <-. reflexivity.
  - destruct (zlen bytes <=? 65535) eqn:Eb; [rewrite E1 in H by lia; injection H as <-; reflexivity|].
    destruct fuel as [|k]; [destruct bytes; [unfold zlen in Ea; cbn in Ea; lia|cbn in Hf; lia]|]. cbn [add_chunks] in H. replace (zlen bytes =? 0) with false in H by lia. unfold MAX_INST_SIZE in H.
    replace (Z.min (zlen bytes) 65535) with 65535 in H by lia. assert (Hd := zlen_drop 65535 bytes ltac:(lia)).
    rewrite E1 in H; [cbn [bind] in H; injection H as <-; reflexivity| |lia]. unfold zlen in *. lia.
Qed.
Lemma t_add_ops_ok bytes : Forall is_byte bytes -> zlen bytes <= 131069 -> exists ops, t_add_ops bytes = Ok ops /\ atoms ops = map inl bytes /\ Forall op_good ops /\
  filter is_copy ops = [] /\ zlen ops = wtA (zlen bytes).
Proof.
  intros Hb Hl. destruct bytes as [|b [|b2 r]].
  - exists []. repeat split; constructor.
  - exists [Run b 1]. inversion Hb; subst. split; [reflexivity|]. split; [reflexivity|]. split; [|split; reflexivity]. constructor; [|constructor]. unfold is_byte in *. repeat split; cbn; unfold is_byte; lia.
  - set (bytes := b :: b2 :: r) in *. assert (Hpos : 2 <= zlen bytes) by (unfold bytes; rewrite !zlen_cons; pose proof (zlen_nonneg r); lia).
    assert (E : t_add_ops bytes = if zlen bytes =? MAX_INST_SIZE then Ok [Add bytes] else add_chunks (length bytes) bytes) by reflexivity. rewrite E. unfold MAX_INST_SIZE.
    destruct (zlen bytes =? 65535) eqn:E1.
    + exists [Add bytes]. split; [reflexivity|]. split; [unfold atoms; cbn [flat_map]; apply app_nil_r|]. split; [|split; [reflexivity|]].
      * constructor; [|constructor]. repeat split; cbn [op_typed op_legal op_len]; try assumption; lia.
      * unfold wtA. replace (zlen bytes <=? 0) with false by lia. replace (zlen bytes <=? 65535) with true by lia. reflexivity.
    + destruct (add_chunks_ok [] (length bytes) bytes [] (le_n _) Hb) as (ops & H1 & [H2 H2'] & H3). exists ops. split; [exact H1|].
      assert (Hnc : forallb (fun o => negb (is_copy o)) ops = true) by (rewrite forallb_forall in *; intros x Hx; specialize (H3 x Hx); now destruct x).
      split; [exact (lits_atoms [] ops bytes Hnc (good_ok _ H2) H2')|]. split; [exact H2|]. split; [|apply (add_chunks_count (length bytes) bytes); auto; lia].
      clear -Hnc. induction ops as [|o ops IH]; [reflexivity|]. cbn in *. apply andb_true_iff in Hnc as [Hn Hnc]. destruct (is_copy o); [discriminate|]. now apply IH.
Qed.
Lemma run_chunks_small byte n ops : 0 < n <= 124 -> run_chunks 6 byte n = Ok ops -> zlen ops = wtR n.
Proof.
  intros Hn H. unfold wtR. replace (n <=? 0) with false by lia. cbn [run_chunks] in H. unfold MAX_RUN_LEN in H. replace (n <=? 0) with false in H by lia. destruct (n <=? 62) eqn:E.
  - replace (n - Z.min 62 n <=? 0) with true in H by lia. cbn [bind] in H. injection H as <-. reflexivity.
  - replace (Z.min 62 n) with 62 in H by lia. replace (n - 62 <=? 0) with false in H by lia. replace (Z.min 62 (n - 62)) with (n - 62) in H by lia.
    replace (n - 62 - (n - 62) <=? 0) with true in H by lia. cbn [bind] in H. injection H as <-. reflexivity.
Qed.
Lemma t_run_ops_ok byte n p : is_byte byte -> 0 < n <= 124 -> exists ops, t_run_ops byte n p = Ok ops /\ atoms ops = map inl (rep byte n) /\ Forall op_good ops /\
  filter is_copy ops = [] /\ zlen ops = wtR n.
Proof.
  intros Hb Hn. unfold t_run_ops, make_run_ops, RUN_LIMIT. replace (n <? 372) with true by lia.
  destruct (run_chunks_ok [] byte Hb 6 n [] ltac:(lia)) as (ops & H1 & [H2 H2'] & Hnc). exists ops. split; [exact H1|].
  split; [exact (lits_atoms [] ops _ Hnc (good_ok _ H2) H2')|]. split; [exact H2|]. split; [|now apply (run_chunks_small byte)].
  clear -Hnc. induction ops as [|o ops IH]; [reflexivity|]. cbn in *. apply andb_true_iff in Hnc as [Hn Hnc]. destruct (is_copy o); [discriminate|]. now apply IH.
Qed.
Lemma convert_ok : forall l, Forall (iok 131069 124) l -> exists ops, convert l = Ok ops /\ atoms ops = iatoms l /\ Forall op_ok ops /\ Forall no_empty ops /\
  zlen ops = wts l.
Proof.
  induction l as [|x l IH]; intro H; [exists []; repeat split; constructor|]. inversion H as [|? ? H1 H2]; subst. destruct (IH H2) as (ops & E & A & O & N & Z0). cbn [convert].
  assert (G : exists these, match x with IAdd bs => if zlen bs =? 0 then Ok [] else t_add_ops bs | ICopy s a n => Ok [Copy s a n] | IRun b n p => if n >? 0 then t_run_ops b n p else Ok [] end = Ok these /\
     atoms these = match x with IAdd bs => map inl bs | IRun b n _ => map inl (rep b n) | ICopy s a n => [inr (s, a, n)] end /\ Forall op_ok these /\ Forall no_empty these /\ zlen these = wt x).
  { destruct x as [bs|s a n|b n p]; cbn [iok] in H1.
    - destruct (zlen bs =? 0) eqn:E0.
      + assert (bs = []) by (apply zlen_0; lia). subst. exists []. repeat split; constructor.
      + destruct (t_add_ops_ok bs (proj1 H1) (proj2 H1)) as (o & E1 & A1 & G1 & _ & Z1). exists o. split; [exact E1|]. split; [exact A1|]. split; [now apply good_ok|]. split; [|exact Z1].
        eapply Forall_impl; [|exact G1]. intros y [_ Hy]. now right.
    - exists [Copy s a n]. split; [reflexivity|]. split; [reflexivity|]. split; [|split; [|reflexivity]]; constructor; try constructor; cbn in *; lia || reflexivity.
    - destruct (n >? 0) eqn:E0.
      + destruct (t_run_ops_ok b n p (proj1 H1) ltac:(lia)) as (o & E1 & A1 & G1 & _ & Z1). exists o. split; [exact E1|]. split; [exact A1|]. split; [now apply good_ok|]. split; [|exact Z1].
        eapply Forall_impl; [|exact G1]. intros y [_ Hy]. now right.
      + exists []. rewrite rep_0 by lia. split; [reflexivity|]. split; [reflexivity|]. split; [constructor|]. split; [constructor|]. cbn. unfold wtR. replace (n <=? 0) with true by lia. reflexivity. }
  destruct G as (these & -> & A1 & O1 & N1 & Z1). cbn [bind]. rewrite E. cbn [bind]. exists (these ++ ops). split; [reflexivity|].
  unfold atoms, iatoms, wts in *. cbn [flat_map fold_right]. rewrite flat_map_app, A, A1, zlen_app, Z1, Z0. split; [destruct x; reflexivity|]. split; [apply Forall_app; auto|]. split; [apply Forall_app; auto|reflexivity].
Qed.

Lemma optimize_ok m ops : ops <> [] -> Forall op_ok ops -> zlen ops < 2 ^ 64 -> exists ops', optimize m (map to_inner (number 0 ops)) = Ok ops' /\ atoms ops' = atoms ops /\ Forall op_ok ops' /\
  Forall no_empty ops' /\ zlen ops' <= zlen ops.
Proof.
  intros Hne Hok Hl. destruct (to_inner_ok ops 0 Hok) as (A0 & O0 & W0). set (l := map to_inner (number 0 ops)) in *.
  assert (Hz : zlen l = zlen ops) by (unfold l; rewrite zlen_map, <- (zlen_map snd), number_snd; reflexivity).
  assert (Hz1 : 1 <= zlen ops) by (destruct ops; [contradiction|rewrite zlen_cons; pose proof (zlen_nonneg ops); lia]).
  destruct (join_adds_ok 65535 62 ltac:(lia) ltac:(lia) (length l) l (le_n _) O0) as (A1 & O1 & W1 & Z1).
  destruct (join_runs_ok 131069 (length (join_adds l)) (join_adds l) (le_n _) O1) as (A2 & O2 & W2).
  destruct (convert_ok _ O2) as (ops' & E & A3 & O3 & N3 & Z3). exists ops'. unfold optimize, join_bound. rewrite Z1, Hz. rewrite usub_ok by lia. cbn [bind].
  replace (zlen ops <? 1) with false by lia. rewrite andb_false_r. cbn [bind]. split; [exact E|]. split; [congruence|]. split; [exact O3|]. split; [exact N3|lia].
Qed.
Lemma optimize_nil m : optimize m [] = Panic.
Proof. destruct m; reflexivity. Qed.
