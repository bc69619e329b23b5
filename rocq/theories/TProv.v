(** Property C115: merged patches and other sources; where the bytes of a merged patch come from. *)
From Verif Require Import Base Spec MCommon MWriter MReader MDecoder MTrgtMatcher MSrcMatcher MEncInner MEncode MMerger MTranscoder SpecApi SpecMerge SpecGraft PBase PStream PSection PDecoder PPatch PRobust PEncode
  PMerge PMerge2 PMerge3 PMerge4 PGraft PCost TEncode TMerge TPipe TInPlace TWrong TGraft TCost.
Ltac Zify.zify_post_hook ::= idtac.
Arguments Z.add : simpl never.
Arguments Z.sub : simpl never.
Arguments Z.mul : simpl never.
Arguments Z.pow : simpl never.

(** ** Specification (with [origins], [value], [reaches] and [agree] from TWrong.v) *)
(** Where the bytes come from if what the source is made of comes from [older] in turn. *)
Definition through (older newer : list (Z + Z)) : list (Z + Z) := map (fun x => match x with inl b => inl b | inr k => nth (Z.to_nat k) older (inl 0) end) newer.
(** Where the bytes a chain of patches makes come from; operations newest first. *)
Fixpoint chain_origins (l : list (list op)) : list (Z + Z) :=
  match l with [] => [] | [x] => origins [] x | x :: r => through (chain_origins r) (origins [] x) end.

(** ** Another source *)
Lemma run_loop next d : forall bs secs r, patch_read next bs secs r -> forall fuel p out res, (length secs <= fuel)%nat -> Forall op_ok (concat (map fst secs)) ->
  run_ops d out (concat (map fst secs)) = Some res -> exists p', apply_loop next fuel (Some d) bs (mkSink out p) (zlen out) = (mkSink res p', Ok r).
Proof.
  intros bs secs r H. induction H as [bs ops h r E Hm|bs ops h r secs r' E Hm Hp IH]; intros fuel p out res Hf Hok HR; (destruct fuel as [|k]; [cbn in Hf; lia|]); cbn [apply_loop]; rewrite E; cbn [map fst concat] in *.
  - rewrite app_nil_r in *. pose proof (apply_ops_spec d [] ops out p (ops_ok_nonneg _ Hok)) as Ha. rewrite over_nil in Ha. rewrite Ha. rewrite (perform_old d [] ops out res (ops_ok_nonneg _ Hok) HR). cbv iota zeta. rewrite Hm, over_nil. eauto.
  - apply Forall_app in Hok as [H1 H2]. rewrite run_ops_app in HR. destruct (run_ops d out ops) as [mid|] eqn:E1; [|discriminate].
    pose proof (apply_ops_spec d [] ops out p (ops_ok_nonneg _ H1)) as Ha. rewrite over_nil in Ha. rewrite Ha. rewrite (perform_old d [] ops out mid (ops_ok_nonneg _ H1) E1). cbv iota zeta. rewrite Hm, over_nil.
    apply IH; [cbn in Hf; lia|exact H2|exact HR].
Qed.
Lemma applies_rerun m cd patch src out ops other res : applies m cd patch src out -> reads_as m cd patch ops -> Forall op_ok ops -> run_ops other [] ops = Some res -> applies m cd patch other res.
Proof.
  intros (p & H) (secs & r & Hp & ->) Hok HR. unfold apply_patch in H.
  destruct (apply_loop (next_section m cd) (S (length patch)) (Some src) patch (mkSink [] 0) 0) as [s' rr] eqn:E.
  injection H as -> H. destruct rr as [rest| | |]; try discriminate. clear H.
  destruct (apply_loop_reads _ _ _ _ _ _ _ _ E) as (secs' & Hp' & Hl). destruct (patch_read_det _ _ _ _ Hp _ _ Hp') as [-> ->].
  destruct (run_loop _ other _ _ _ Hp (S (length patch)) 0 [] res Hl Hok HR) as (p' & E'). change (zlen (@nil Z)) with 0 in E'. exists p'. unfold apply_patch. rewrite E'. reflexivity.
Qed.
Lemma reaches_same l l' ops : zlen l' = zlen l -> reaches l ops -> reaches l' ops.
Proof. intros E H a n Hi Hn. rewrite E. now apply H. Qed.
Lemma run_reaches src : forall ops o out, Forall op_nonneg ops -> run_ops src o ops = Some out -> reaches src ops.
Proof.
  induction ops as [|x ops IH]; intros o out Hn H a n Hi H1; [destruct Hi|]. inversion Hn; subst. cbn [run_ops] in H. destruct (op_bytes src o x) eqn:E; [|discriminate].
  destruct Hi as [-> |Hi]; [|eapply IH; eassumption]. cbn [op_bytes] in E. destruct (in_range src a n) eqn:R; [|discriminate]. apply in_range_iff in R; lia.
Qed.
Lemma good_other m cd p src out other ops : good_patch m cd p src out -> reads_as m cd p ops -> zlen other < 2 ^ 63 -> reaches other ops ->
  exists res, good_patch m cd p other res /\ zlen res = zlen out /\ (res = out <-> agree other src ops).
Proof.
  intros (HA & Hs & Ho & ops' & HR' & Hg) HR Hz Hre. pose proof (reads_as_det _ _ _ _ _ HR HR') as <-. pose proof (good_ok _ Hg) as Hok. pose proof (ops_ok_nonneg _ Hok) as Hn.
  destruct (applies_extract m cd p src out ops HA HR Hok) as [_ Hrun]. destruct (reach_run src other ops [] [] out eq_refl Hn Hre Hrun) as (res & E & L). exists res.
  split; [|split; [exact L|]].
  - split; [exact (applies_rerun _ _ _ _ _ _ _ _ HA HR Hok E)|]. split; [exact Hz|]. split; [lia|]. exists ops. auto.
  - rewrite (run_agree src other ops [] [] out res eq_refl Hn Hrun E). tauto.
Qed.
Lemma good_run m cd p src out ops : good_patch m cd p src out -> reads_as m cd p ops -> Forall op_good ops /\ run_ops src [] ops = Some out.
Proof.
  intros (HA & Hs & Ho & ops' & HR' & Hg) HR. pose proof (reads_as_det _ _ _ _ _ HR HR') as <-. split; [exact Hg|]. exact (proj2 (applies_extract m cd p src out ops HA HR (good_ok _ Hg))).
Qed.
(** A chain applies to another source exactly if its oldest patch reaches no further. *)
Lemma chain_other m cd : forall ps src out, chain m cd src ps out -> ps <> [] -> forall other oops, reads_as m cd (last ps []) oops -> zlen other < 2 ^ 63 ->
  (reaches other oops <-> exists res, chain m cd other ps res) /\ forall res, chain m cd other ps res -> zlen res = zlen out.
Proof.
  induction 1 as [x|src mid out p older Hch IH Hg]; intros Hne other oops HR Hz; [congruence|]. destruct older as [|p2 older].
  - inversion Hch; subst. cbn [last] in HR. split; [split|].
    + intro Hre. destruct (good_other m cd p mid out other oops Hg HR Hz Hre) as (res & G & _). exists res. econstructor; [constructor|exact G].
    + intros (res & Hc). inversion Hc; subst. match goal with H : chain _ _ _ [] _ |- _ => inversion H; subst end. match goal with H : good_patch m cd p ?x res |- _ => destruct (good_run _ _ _ _ _ _ H HR) as [G R] end.
      eapply run_reaches; [|exact R]. apply ops_ok_nonneg, good_ok, G.
    + intros res Hc. inversion Hc; subst. match goal with H : chain _ _ _ [] _ |- _ => inversion H; subst end. match goal with H : good_patch m cd p ?x res |- _ => destruct (good_run _ _ _ _ _ _ H HR) as [G R] end.
      destruct (good_run _ _ _ _ _ _ Hg HR) as [_ R0]. pose proof (ops_ok_nonneg _ (good_ok _ G)) as Hn. pose proof (run_ops_len _ _ _ _ Hn R). pose proof (run_ops_len _ _ _ _ Hn R0). lia.
  - change (last (p :: p2 :: older) []) with (last (p2 :: older) (@nil Z)) in HR. destruct (IH ltac:(congruence) other oops HR Hz) as [I1 I2]. destruct Hg as (HA & Hs & Ho & ops & HRp & Hgo).
    assert (Hg : good_patch m cd p mid out) by (split; [exact HA|split; [exact Hs|split; [exact Ho|exists ops; auto]]]). destruct (good_run _ _ _ _ _ _ Hg HRp) as [_ R0]. pose proof (ops_ok_nonneg _ (good_ok _ Hgo)) as Hn. split; [split|].
    + intro Hre. destruct (proj1 I1 Hre) as (mid' & Hc'). pose proof (I2 _ Hc') as L. pose proof (run_reaches _ _ _ _ Hn R0) as Rm. destruct (good_other m cd p mid out mid' ops Hg HRp ltac:(lia) (reaches_same _ _ _ L Rm)) as (res & G & _).
      exists res. econstructor; eassumption.
    + intros (res & Hc). inversion Hc; subst. apply I1. eauto.
    + intros res Hc. inversion Hc; subst. match goal with H : good_patch m cd p ?x res |- _ => destruct (good_run _ _ _ _ _ _ H HRp) as [G R] end. pose proof (run_ops_len _ _ _ _ Hn R). pose proof (run_ops_len _ _ _ _ Hn R0). lia.
Qed.
Lemma chain_new_ok m cd newest older src out r : chain m cd src (newest :: older) out -> merge_from m cd newest older = Ok r -> new_ok m cd newest.
Proof. intros Hch E. inversion Hch; subst. eapply merge_ok_new; eassumption. Qed.
(** C115. A chain of patches and its merge [b], on a source other than the one they were made for. The chain works exactly if its oldest patch reaches no further than that source, and then the merged
    patch works too and makes the same. *)
Theorem C115_other_source : forall m m' cd newest older src out r seg f sc b other ops, chain m cd src (newest :: older) out -> zlen src < 2 ^ 63 -> merge_from m cd newest older = Ok r -> comp_lossless cd sc out ->
  summary_write m' cd (summary_of r) seg f sc = (b, Ok tt) -> zlen other < 2 ^ 63 -> reads_as m cd (last (newest :: older) []) ops ->
  (reaches other ops <-> exists res, chain m cd other (newest :: older) res) /\ (forall res, chain m cd other (newest :: older) res -> zlen res = zlen out /\ good_patch m cd b other res).
Proof.
  intros m m' cd newest older src out r seg f sc b other ops Hch Hs E Hsc W Hz HR. destruct (chain_other m cd _ _ _ Hch ltac:(congruence) other ops HR Hz) as [H1 H2]. split; [exact H1|]. intros res Hc. split; [exact (H2 _ Hc)|].
  pose proof (chain_new_ok _ _ _ _ _ _ _ Hch E) as Hn. destruct (C49_merge_chain _ _ _ _ _ _ Hch Hs Hn) as (r' & E' & Hg & Hr & _). rewrite E in E'. injection E' as <-.
  destruct (C49_merge_chain _ _ _ _ _ _ Hc Hz Hn) as (r' & E' & _ & Hr' & _). rewrite E in E'. injection E' as <-. pose proof (chain_bound _ _ _ _ _ Hch Hs) as Ho.
  pose proof (summary_write_reads m' m cd _ src out seg f sc b Hsc Hg Hr Ho Hs W) as HRb. destruct (summary_write_apply m' m cd _ src out seg f sc b [] [] 0 Hsc Hg Hr Ho Hs W) as (p' & HA).
  rewrite app_nil_r in HA. rewrite over_nil in HA. assert (HAb : applies m cd b src out) by (exists p'; exact HA). pose proof (H2 _ Hc).
  split; [exact (applies_rerun _ _ _ _ _ _ _ _ HAb HRb (good_ok _ Hg) Hr')|]. split; [exact Hz|]. split; [lia|]. exists (summary_of r). auto.
Qed.

(** ** Provenance *)
(** Sources whose bytes tell where they come from. *)
Definition code (x : Z + Z) : Z := match x with inl b => b | inr k => 256 + k end.
Definition valid (x : Z + Z) : Prop := match x with inl b => 0 <= b < 256 | inr k => 0 <= k end.
Lemma code_inj x y : valid x -> valid y -> code x = code y -> x = y.
Proof. destruct x, y; cbn [valid code]; intros; f_equal; lia. Qed.
Lemma codes_inj : forall l l', Forall valid l -> Forall valid l' -> map code l = map code l' -> l = l'.
Proof.
  induction l as [|x l IH]; intros [|y l'] H H' E; try discriminate; [reflexivity|]. inversion H; inversion H'; subst. cbn [map] in E. injection E as E1 E2. f_equal; [now apply code_inj|now apply IH].
Qed.
Lemma origins_valid : forall ops po, Forall op_good ops -> Forall valid po -> Forall valid (origins po ops).
Proof.
  induction ops as [|x ops IH]; intros po Hg Hp; [exact Hp|]. inversion Hg as [|? ? [[Ht Hl] Hx] Hg']; subst. cbn [origins]. apply IH; [exact Hg'|]. apply Forall_app. split; [exact Hp|].
  destruct x as [bs|b n|[] a n]; cbn [op_typed op_legal] in *.
  - apply Forall_map. eapply Forall_impl; [|exact Ht]. intros b Hb. exact Hb.
  - apply Forall_forall. intros y Hy. unfold rep in Hy. apply repeat_spec in Hy. subst y. cbn [valid]. destruct Ht as [Hb _]. exact Hb.
  - apply Forall_map, Forall_forall. intros k _. cbn [valid]. lia.
  - apply Forall_forall. intros y Hy. apply in_sub in Hy. rewrite Forall_forall in Hp. now apply Hp.
Qed.
(** Running operations on such a source makes a target whose bytes tell where they come from. *)
Lemma run_codes ops pos out : Forall op_good ops -> Forall valid pos -> run_ops (map code pos) [] ops = Some out -> out = map code (through pos (origins [] ops)) /\ Forall valid (through pos (origins [] ops)).
Proof.
  intros Hg Hp HR. pose proof (origins_value (map code pos) ops [] [] out (ops_ok_nonneg _ (good_ok _ Hg)) HR eq_refl) as E. pose proof (origins_valid ops [] Hg ltac:(constructor)) as V.
  clear HR. revert out E V. generalize (origins [] ops). intro l. induction l as [|x l IH]; intros out E V; destruct out as [|y out]; try discriminate; [split; [reflexivity|constructor]|].
  cbn [map] in E. injection E as E1 E2. inversion V as [|? ? V1 V2]; subst. destruct (IH _ E2 V2) as [-> I2]. cbn [through map]. unfold through in I2. destruct x as [b|k]; cbn [value valid code] in *.
  - injection E1 as <-. split; [reflexivity|]. constructor; [exact V1|exact I2].
  - unfold byte_at in E1. assert (Hk : (Z.to_nat k < length pos)%nat) by (rewrite <- (map_length code); apply nth_error_Some; rewrite E1; discriminate).
    rewrite nth_error_map in E1. rewrite (nth_error_nth' pos (inl 0) Hk) in E1. cbn [option_map] in E1. injection E1 as <-. split; [reflexivity|]. constructor; [|exact I2]. rewrite Forall_forall in Hp. apply Hp, nth_In, Hk.
Qed.
Lemma through_id n l : Forall valid l -> (forall k, In (inr k) l -> k < Z.of_nat n) -> through (map (fun k => inr (Z.of_nat k)) (seq 0 n)) l = l.
Proof.
  intros V H. unfold through. erewrite map_ext_in; [apply map_id|]. intros [b|k] Hi; [reflexivity|]. specialize (H k Hi). rewrite Forall_forall in V. pose proof (V _ Hi) as Vk. cbn [valid] in Vk.
  set (f := fun k : nat => (inr (Z.of_nat k) : Z + Z)). rewrite (nth_indep _ (inl 0) (f 0%nat)) by (rewrite map_length, seq_length; lia). rewrite (map_nth f). rewrite seq_nth by lia. unfold f. f_equal. lia.
Qed.
Lemma byte_at_some l k z : byte_at l k = Some z -> (Z.to_nat k < length l)%nat.
Proof. unfold byte_at. intro H. apply nth_error_Some. rewrite H. discriminate. Qed.
Lemma origins_bound src ops out : Forall op_good ops -> run_ops src [] ops = Some out -> forall k, In (inr k) (origins [] ops) -> (Z.to_nat k < length src)%nat.
Proof.
  intros Hg HR k Hi. pose proof (origins_value src ops [] [] out (ops_ok_nonneg _ (good_ok _ Hg)) HR eq_refl) as E. assert (In (value src (inr k)) (map Some out)) as H by (rewrite <- E; now apply in_map).
  apply in_map_iff in H as (z & H & _). cbn [value] in H. eapply byte_at_some. symmetry. exact H.
Qed.
Lemma chain_ops m cd : forall ps src out, chain m cd src ps out -> forall opss, Forall2 (reads_as m cd) ps opss -> Forall (Forall op_good) opss.
Proof. induction 1 as [|src mid out p older Hch IH Hg]; intros opss HF; inversion HF; subst; constructor; [|now apply IH]. eapply good_run; eassumption. Qed.
Lemma through_through a b c : (forall k, In (inr k) c -> (Z.to_nat k < length b)%nat) -> through (through a b) c = through a (through b c).
Proof.
  intro H. unfold through. rewrite !map_map. apply map_ext_in. intros [x|k] Hi; [reflexivity|]. specialize (H k Hi). 
  set (f := fun x : Z + Z => match x with inl b => inl b | inr k => nth (Z.to_nat k) a (inl 0) end). rewrite (nth_indep _ (inl 0) (f (inl 0))) by (rewrite map_length; exact H). now rewrite (map_nth f).
Qed.
(** On a source that tells where its bytes come from. *)
Lemma chain_codes m cd : forall ps src out, chain m cd src ps out -> forall opss pos, Forall2 (reads_as m cd) ps opss -> ps <> [] -> src = map code pos -> Forall valid pos -> 
  out = map code (through pos (chain_origins opss)) /\ Forall valid (through pos (chain_origins opss)) /\ zlen (chain_origins opss) = zlen out /\ Forall valid (chain_origins opss) /\
  forall k, In (inr k) (chain_origins opss) -> (Z.to_nat k < length pos)%nat.
Proof.
  induction 1 as [|src mid out p older Hch IH Hg]; intros opss pos HF Hne -> Hp; [congruence|]. inversion HF as [|? ops ? opss' HR HF']; subst. destruct (good_run _ _ _ _ _ _ Hg HR) as [Hgo Hrun]. pose proof (origins_valid ops [] Hgo ltac:(constructor)) as Vo. destruct older as [|p2 older].
  - inversion Hch; subst. inversion HF'; subst. cbn [chain_origins]. destruct (run_codes _ _ _ Hgo Hp Hrun) as [E1 E2]. split; [exact E1|]. split; [exact E2|]. split; [rewrite E1; unfold zlen, through; now rewrite !map_length|]. split; [exact Vo|].
    intros k Hi. rewrite <- (map_length code). exact (origins_bound _ _ _ Hgo Hrun k Hi).
  - destruct opss' as [|o2 opss']; [inversion HF'|]. change (chain_origins (ops :: o2 :: opss')) with (through (chain_origins (o2 :: opss')) (origins [] ops)).
    destruct (IH _ pos HF' ltac:(congruence) eq_refl Hp) as (I1 & I2 & I3 & I4 & I5). rewrite I1 in Hrun. destruct (run_codes _ _ _ Hgo I2 Hrun) as [E1 E2].
    assert (B : forall k, In (inr k) (origins [] ops) -> (Z.to_nat k < length (chain_origins (o2 :: opss')))%nat).
    { intros k Hi. pose proof (origins_bound _ _ _ Hgo Hrun k Hi) as H. unfold through in H. now rewrite !map_length in H. }
    rewrite through_through in E1, E2 by exact B. split; [exact E1|]. split; [exact E2|]. split; [rewrite E1; unfold zlen, through; now rewrite !map_length|].
    split; [|intros k Hi; unfold through in Hi; apply in_map_iff in Hi as ([z|j] & E & Hy); [discriminate|]; apply I5; rewrite <- E; apply nth_In, B, Hy].
    apply Forall_forall. intros x Hx. unfold through in Hx. apply in_map_iff in Hx as (y & <- & Hy). rewrite Forall_forall in Vo. destruct y as [z|k]; [exact (Vo _ Hy)|]. rewrite Forall_forall in I4. apply I4, nth_In, B, Hy.
Qed.
(** C115. Where the bytes of a merged patch come from: through the patches one by one. Literal bytes stay literal bytes, and a byte copied from the output of the older patches comes from where they take it. *)
Theorem C115_provenance : forall m cd newest older src out r opss, chain m cd src (newest :: older) out -> zlen src < 2 ^ 63 -> merge_from m cd newest older = Ok r ->
  Forall2 (reads_as m cd) (newest :: older) opss -> origins [] (summary_of r) = chain_origins opss.
Proof.
  intros m cd newest older src out r opss Hch Hs E HF. pose proof (chain_new_ok _ _ _ _ _ _ _ Hch E) as Hn. destruct (C49_merge_chain _ _ _ _ _ _ Hch Hs Hn) as (r' & E' & Hg & Hr & _). rewrite E in E'. injection E' as <-.
  set (n := length src). set (pos := map (fun k => inr (Z.of_nat k)) (seq 0 n) : list (Z + Z)).
  assert (Vp : Forall valid pos) by (apply Forall_map, Forall_forall; intros k _; cbn [valid]; lia).
  assert (Hz : zlen (map code pos) = zlen src) by (unfold zlen, pos; now rewrite !map_length, seq_length).
  assert (HL : exists ops, reads_as m cd (last (newest :: older) []) ops).
  { clear - Hch. revert src out Hch. generalize newest. induction older as [|p older IH]; intros q src out Hch; inversion Hch; subst; [match goal with H : good_patch _ _ _ _ _ |- _ => destruct H as (_ & _ & _ & ops & HX & _) end; exists ops; exact HX|].
    change (last (q :: p :: older) []) with (last (p :: older) (@nil Z)). eapply IH. eassumption. }
  destruct HL as (oops & HL). destruct (chain_other m cd _ _ _ Hch ltac:(congruence) src oops HL Hs) as [H1 _]. destruct (chain_other m cd _ _ _ Hch ltac:(congruence) (map code pos) oops HL ltac:(lia)) as [H2 _].
  assert (Hre : reaches src oops) by (apply H1; eauto). destruct (proj1 H2 (reaches_same _ _ _ Hz Hre)) as (res & Hc).
  destruct (chain_codes m cd _ _ _ Hc opss pos HF ltac:(congruence) eq_refl Vp) as (C1 & C2 & C3 & C4 & C5). destruct (C49_merge_chain _ _ _ _ _ _ Hc ltac:(lia) Hn) as (r' & E' & _ & Hr' & _). rewrite E in E'. injection E' as <-.
  destruct (run_codes _ _ _ Hg Vp Hr') as [D1 D2]. rewrite C1 in D1. apply codes_inj in D1; [|exact C2|exact D2].
  rewrite (through_id n) in D1; [|exact C4|].
  - rewrite (through_id n) in D1; [now rewrite D1|now apply origins_valid; [|constructor]|]. intros k Hi. pose proof (origins_bound _ _ _ Hg Hr k Hi) as B. fold n in B. pose proof (origins_valid _ [] Hg ltac:(constructor)) as V. rewrite Forall_forall in V. pose proof (V _ Hi) as Vk. cbn [valid] in Vk. lia.
  - intros k Hi. specialize (C5 k Hi). unfold pos in C5. rewrite map_length, seq_length in C5. rewrite Forall_forall in C4. pose proof (C4 _ Hi) as Vk. cbn [valid] in Vk. lia.
Qed.

Lemma chain_origins_last k : forall l, l <> [] -> In (inr k) (chain_origins l) -> In (inr k) (origins [] (last l [])).
Proof.
  induction l as [|x l IH]; intros Hne H; [congruence|]. destruct l as [|y l]; [exact H|]. change (last (x :: y :: l) []) with (last (y :: l) (@nil op)). apply IH; [congruence|].
  change (chain_origins (x :: y :: l)) with (through (chain_origins (y :: l)) (origins [] x)) in H. unfold through in H. apply in_map_iff in H as ([z|j] & E & _); [discriminate|].
  destruct (nth_in_or_default (Z.to_nat j) (chain_origins (y :: l)) (inl 0)) as [H|H]; [now rewrite E in H|]. rewrite H in E. discriminate.
Qed.
Lemma agree_origins other src ops : Forall op_good ops -> (agree other src ops <-> forall k, In (inr k) (origins [] ops) -> byte_at other k = byte_at src k).
Proof.
  intro Hg. pose proof (ops_ok_nonneg _ (good_ok _ Hg)) as Hn. split.
  - intros H k Hi. apply (origins_source k ops [] Hn) in Hi as [[]|(a & n & Hi & Hk)]. exact (H a n k Hi Hk).
  - intros H a n i Hi Hk. apply H. apply (origins_source i ops [] Hn). right. eauto.
Qed.
(** The merge uses only bytes of the source that the oldest patch copies: it goes wrong on no source on which that patch does not. On any source it gives what the chain was made for exactly if that source has the right bytes
    where the bytes of the merge come from. *)
Theorem C115_needs_less : forall m m' cd newest older src out r seg f sc b other opss, chain m cd src (newest :: older) out -> zlen src < 2 ^ 63 -> merge_from m cd newest older = Ok r -> comp_lossless cd sc out ->
  summary_write m' cd (summary_of r) seg f sc = (b, Ok tt) -> Forall2 (reads_as m cd) (newest :: older) opss -> zlen other < 2 ^ 63 ->
  (forall k, In (inr k) (chain_origins opss) -> exists a n, In (Copy Dict a n) (last opss []) /\ a <= k < a + n) /\
  (good_patch m cd b other out <-> forall k, In (inr k) (chain_origins opss) -> byte_at other k = byte_at src k) /\
  (agree other src (last opss []) -> good_patch m cd b other out).
Proof.
  intros m m' cd newest older src out r seg f sc b other opss Hch Hs E Hsc W HF Hz. pose proof (C115_provenance m cd newest older src out r opss Hch Hs E HF) as EO. pose proof (chain_ops m cd _ _ _ Hch _ HF) as HG.
  assert (HL : Forall op_good (last opss [])) by (destruct opss as [|o l]; [constructor|]; rewrite Forall_forall in HG; apply HG; destruct (@exists_last _ (o :: l)) as (l' & z & ->); [congruence|]; rewrite last_last; apply in_app_iff; right; now left).
  assert (P1 : forall k, In (inr k) (chain_origins opss) -> exists a n, In (Copy Dict a n) (last opss []) /\ a <= k < a + n).
  { intros k Hi. apply chain_origins_last in Hi; [|intros ->; inversion HF]. apply (origins_source k _ [] (ops_ok_nonneg _ (good_ok _ HL))) in Hi as [[]|Hi]. exact Hi. }
  pose proof (chain_new_ok _ _ _ _ _ _ _ Hch E) as Hn. destruct (C49_merge_chain _ _ _ _ _ _ Hch Hs Hn) as (r' & E' & Hg & Hr & _). rewrite E in E'. injection E' as <-. pose proof (chain_bound _ _ _ _ _ Hch Hs) as Ho.
  pose proof (summary_write_reads m' m cd _ src out seg f sc b Hsc Hg Hr Ho Hs W) as HRb. destruct (summary_write_apply m' m cd _ src out seg f sc b [] [] 0 Hsc Hg Hr Ho Hs W) as (p' & HA).
  rewrite app_nil_r in HA. rewrite over_nil in HA. assert (HAb : applies m cd b src out) by (exists p'; exact HA).
  assert (GB : good_patch m cd b src out) by (split; [exact HAb|]; split; [exact Hs|]; split; [exact Ho|]; exists (summary_of r); auto).
  pose proof (ops_ok_nonneg _ (good_ok _ Hg)) as Hnn.
  assert (P2 : good_patch m cd b other out <-> forall k, In (inr k) (chain_origins opss) -> byte_at other k = byte_at src k).
  { rewrite <- EO. rewrite <- (agree_origins other src _ Hg). split.
    - intro HB. destruct (good_run _ _ _ _ _ _ HB HRb) as [_ R]. apply (proj1 (run_agree src other _ [] [] out out eq_refl Hnn Hr R)). reflexivity.
    - intro HA'. assert (Hre : reaches other (summary_of r)).
      { pose proof (run_reaches _ _ _ _ Hnn Hr) as R0. intros a n Hi H1. rewrite Forall_forall in Hnn. pose proof (Hnn _ Hi) as [Ha _]. specialize (R0 a n Hi H1). specialize (HA' a n (a + n - 1) Hi ltac:(lia)).
        destruct (byte_at src (a + n - 1)) as [z|] eqn:B; [apply byte_at_some in HA'; unfold zlen; lia|]. unfold byte_at in B. apply nth_error_None in B. unfold zlen in R0. lia. }
      destruct (good_other m cd b src out other _ GB HRb Hz Hre) as (res & G & _ & Hiff). now rewrite (proj2 Hiff HA') in G. }
  split; [exact P1|]. split; [exact P2|]. intro HA'. apply P2. intros k Hi. destruct (P1 k Hi) as (a & n & Hin & Hk). exact (HA' a n k Hin Hk).
Qed.
(** Refuted: that merging keeps the errors. Where the chain stops with an error, because its oldest patch copies bytes the source does not have, the merged patch may work. *)
Theorem C115_errors_lost_refuted : forall cd, codecs_shrink cd -> exists newest older src out other res, forall m, chain m cd src [newest; older] out /\
  snd (apply_patch m cd older (Some other) (mkSink [] 0)) = Err EOF /\
  exists r b, merge_from m cd newest [older] = Ok r /\ summary_write m cd (summary_of r) None None None = (b, Ok tt) /\ good_patch m cd b other res.
Proof.
  intros cd Hsh. set (o1 := [Copy Dict 0 4]). set (o2 := [Copy Dict 1 2]). assert (G1 : Forall op_good o1) by (repeat constructor; cbn; lia). assert (G2 : Forall op_good o2) by (repeat constructor; cbn; lia).
  destruct (written_patch cd o1 [1; 2; 3; 4] [1; 2; 3; 4] G1 ltac:(reflexivity) ltac:(reflexivity) ltac:(reflexivity)) as (older & HO).
  destruct (written_patch cd o2 [1; 2; 3; 4] [2; 3] G2 ltac:(reflexivity) ltac:(reflexivity) ltac:(reflexivity)) as (newest & HN).
  exists newest, older, [1; 2; 3; 4], [2; 3], [7; 8; 9], [8; 9]. intro m. destruct (HO m) as [O1 O2], (HN m) as [N1 N2].
  assert (Hch : chain m cd [1; 2; 3; 4] [newest; older] [2; 3]) by (econstructor; [econstructor; [constructor|exact O1]|exact N1]). split; [exact Hch|].
  split; [rewrite (apply_perform m cd older [7; 8; 9] o1 [] 0 Hsh O2 (ops_ok_nonneg _ (good_ok _ G1))); reflexivity|].
  assert (Hn : new_ok m cd newest) by (right; eexists; split; [exact N2|]; right; reflexivity).
  destruct (C49_merge_chain m cd newest [older] _ _ Hch ltac:(reflexivity) Hn) as (r & E & _).
  assert (ES : summary_of r = o2) by (rewrite (merge_from_graft m cd newest [older] _ _ r _ [o1] Hch ltac:(reflexivity) E N2 (Forall2_cons _ _ O2 (Forall2_nil _))); reflexivity).
  destruct (summary_write_ok m cd o2 [7; 8; 9] [8; 9] None None None I G2 ltac:(reflexivity) ltac:(reflexivity) ltac:(reflexivity)) as (b & W). exists r, b. split; [exact E|]. rewrite ES. split; [exact W|].
  destruct (summary_write_apply m m cd o2 [7; 8; 9] [8; 9] None None None b [] [] 0 I G2 ltac:(reflexivity) ltac:(reflexivity) ltac:(reflexivity) W) as (p' & HA). rewrite app_nil_r in HA. rewrite over_nil in HA.
  split; [exists p'; exact HA|]. split; [reflexivity|]. split; [reflexivity|]. exists o2. split; [|exact G2].
  exact (summary_write_reads m m cd o2 [7; 8; 9] [8; 9] None None None b I G2 eq_refl eq_refl eq_refl W).
Qed.

(** ** Instances *)
Definition c115_older : list op := [Copy Dict 2 4; Add [9; 8]; Copy Output 1 4].
Definition c115_newest : list op := [Copy Dict 5 3; Run 0 2; Copy Dict 2 2].
Example C115_example : exists newest older, forall m, exists r b, chain m toy [10; 11; 12; 13; 14; 15; 16] [newest; older] [8; 13; 14; 0; 0; 14; 15] /\ merge_from m toy newest [older] = Ok r /\
  comp_lossless toy None [8; 13; 14; 0; 0; 14; 15] /\ summary_write m toy (summary_of r) None None None = (b, Ok tt) /\ Forall2 (reads_as m toy) [newest; older] [c115_newest; c115_older] /\
  chain_origins [c115_newest; c115_older] = [inl 8; inr 3; inr 4; inl 0; inl 0; inr 4; inr 5] /\
  reaches [0; 0; 0; 33; 44; 55] c115_older /\ ~ reaches [0; 0; 0; 33; 44] c115_older /\ chain m toy [0; 0; 0; 33; 44; 55] [newest; older] [8; 33; 44; 0; 0; 44; 55] /\
  (forall k, In (inr k) (chain_origins [c115_newest; c115_older]) -> byte_at [99; 99; 99; 13; 14; 15] k = byte_at [10; 11; 12; 13; 14; 15; 16] k) /\ ~ agree [99; 99; 99; 13; 14; 15] [10; 11; 12; 13; 14; 15; 16] c115_older /\ codecs_shrink toy.
Proof.
  assert (G1 : Forall op_good c115_older) by (repeat constructor; cbn; unfold is_byte; lia). assert (G2 : Forall op_good c115_newest) by (repeat constructor; cbn; unfold is_byte; lia).
  destruct (written_patch toy c115_older [10; 11; 12; 13; 14; 15; 16] [12; 13; 14; 15; 9; 8; 13; 14; 15; 9] G1 ltac:(reflexivity) ltac:(reflexivity) ltac:(reflexivity)) as (older & HO).
  destruct (written_patch toy c115_newest [12; 13; 14; 15; 9; 8; 13; 14; 15; 9] [8; 13; 14; 0; 0; 14; 15] G2 ltac:(reflexivity) ltac:(reflexivity) ltac:(reflexivity)) as (newest & HN).
  exists newest, older. intro m. destruct (HO m) as [O1 O2], (HN m) as [N1 N2].
  assert (Hch : chain m toy [10; 11; 12; 13; 14; 15; 16] [newest; older] [8; 13; 14; 0; 0; 14; 15]) by (econstructor; [econstructor; [constructor|exact O1]|exact N1]).
  assert (Hn : new_ok m toy newest) by (right; eexists; split; [exact N2|]; right; reflexivity).
  destruct (C49_merge_chain m toy newest [older] _ _ Hch ltac:(reflexivity) Hn) as (r & E & Hg & Hr & _).
  destruct (summary_write_ok m toy (summary_of r) _ _ None None None I Hg Hr ltac:(reflexivity) ltac:(reflexivity)) as (b & W). exists r, b.
  split; [exact Hch|]. split; [exact E|]. split; [exact I|]. split; [exact W|]. split; [constructor; [exact N2|constructor; [exact O2|constructor]]|]. split; [reflexivity|].
  assert (R : reaches [0; 0; 0; 33; 44; 55] c115_older) by (intros a n [H|[H|[H|[]]]] _; try discriminate; injection H as <- <-; vm_compute; discriminate). split; [exact R|].
  split; [intro H; specialize (H 2 4 (or_introl eq_refl) ltac:(lia)); vm_compute in H; now apply H|].
  split; [|split; [|split; [|exact (proj1 (proj2 (C102_example m)))]]].
  - destruct (good_other m toy older _ _ [0; 0; 0; 33; 44; 55] _ O1 O2 ltac:(reflexivity) R) as (res & Gr & _). destruct (good_run _ _ _ _ _ _ Gr O2) as [_ R1]. vm_compute in R1. injection R1 as <-.
    assert (R2 : reaches [0; 33; 44; 55; 9; 8; 33; 44; 55; 9] c115_newest) by (intros a n [H|[H|[H|[]]]] _; try discriminate; injection H as <- <-; vm_compute; discriminate).
    destruct (good_other m toy newest _ _ [0; 33; 44; 55; 9; 8; 33; 44; 55; 9] _ N1 N2 ltac:(reflexivity) R2) as (res & Gn & _). destruct (good_run _ _ _ _ _ _ Gn N2) as [_ R3]. vm_compute in R3. injection R3 as <-.
    econstructor; [econstructor; [constructor|exact Gr]|exact Gn].
  - intros k H. vm_compute in H. repeat (destruct H as [H|H]; [try discriminate; injection H as <-; reflexivity|]). destruct H.
  - intro H. specialize (H 2 4 2 (or_introl eq_refl) ltac:(lia)). vm_compute in H. discriminate.
Qed.
Print Assumptions C115_other_source.
Print Assumptions C115_provenance.
Print Assumptions C115_needs_less.
Print Assumptions C115_errors_lost_refuted.
