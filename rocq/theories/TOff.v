(** Property C87: features that are switched off are off. *)
From Verif Require Import Base Spec SpecEnc MCommon MWriter MReader MDecoder MOpMaker MTrgtMatcher MSrcMatcher MEncInner MEncode
  SpecApi PBase PCommon PStream PSection PWriter PDecoder PPatch POpMaker PEncInner PEncode TEncode TTrunc.
Ltac Zify.zify_post_hook ::= idtac.
Arguments Z.add : simpl never.
Arguments Z.sub : simpl never.
Arguments Z.mul : simpl never.
Arguments Z.pow : simpl never.

(** ** Without a source matcher the loop never looks at the source *)
Lemma estep_no_src m s1 s2 trgt lazy mx e : e_src e = None -> estep m s1 trgt lazy mx e = estep m s2 trgt lazy mx e.
Proof.
  intro H. unfold estep. destruct (e_st e); [|..]; try reflexivity.
  - unfold start_new_match. rewrite H. reflexivity.
  - unfold try_match. destruct (try_run m trgt e) as [e1|x| |] eqn:E1; cbn [bind]; try reflexivity.
    assert (H1 : e_src e1 = None).
    { unfold try_run in E1. apply bind_ok in E1 as (r & _ & E1). destruct (e_run e =? 4); [|injection E1 as <-; exact H]. apply bind_ok in E1 as (r' & _ & E1). injection E1 as <-. exact H. }
    destruct (take_run m trgt (e_run e =? 4) e1) as [[e2|]|x| |]; cbn [bind]; try reflexivity. unfold try_src. rewrite H1. reflexivity.
Qed.
Lemma opt_map_none {A} (f : A -> res A) o o' : o = None -> opt_map f o = Ok o' -> o' = None.
Proof. intros -> H. injection H as <-. reflexivity. Qed.
Lemma estep_keeps_no_src m src trgt lazy mx e e' : e_src e = None -> estep m src trgt lazy mx e = Ok e' -> e_src e' = None.
Proof.
  intros H. unfold estep. destruct (e_st e) as [| |len|].
  - unfold start_new_match. intro E. apply bind_ok in E as ([r b] & _ & E). apply bind_ok in E as (sm & Es & E). apply bind_ok in E as (tm & _ & E). injection E as <-. cbn [e_src]. exact (opt_map_none _ _ _ H Es).
  - unfold try_match. intro E. apply bind_ok in E as (e1 & E1 & E).
    assert (H1 : e_src e1 = None).
    { unfold try_run in E1. apply bind_ok in E1 as (r & _ & E1). destruct (e_run e =? 4); [|injection E1 as <-; exact H]. apply bind_ok in E1 as (r' & _ & E1). injection E1 as <-. exact H. }
    apply bind_ok in E as (o & Eo & E). destruct o as [e2|].
    + injection E as <-. unfold take_run in Eo. destruct ((e_run e =? 4) && (e_run e1 >=? e_min e1)); [|discriminate Eo]. apply bind_ok in Eo as (w & _ & Eo). apply bind_ok in Eo as (u & _ & Eo). injection Eo as <-. exact H1.
    + apply bind_ok in E as (o & Eo' & E). unfold try_src in Eo'. rewrite H1 in Eo'. injection Eo' as <-. apply bind_ok in E as (o & Et & E). destruct o as [e2|].
      * injection E as <-. unfold try_trgt in Et. destruct (e_trgt e1); [|discriminate Et]. cbv zeta in Et. destruct (e_cur e1 + 4 <=? mx); [|discriminate Et]. apply bind_ok in Et as (u & _ & Et). apply bind_ok in Et as (r & _ & Et).
        destruct r as [[s n]|]; [|discriminate Et]. destruct (n >=? e_min e1); [|discriminate Et]. apply bind_ok in Et as (u1 & _ & Et). apply bind_ok in Et as (u2 & _ & Et). injection Et as <-. exact H1.
      * injection E as <-. exact H1.
  - unfold found_match. intro E. apply bind_ok in E as (l & _ & E). destruct ((lazy >? 0) && (len <? lazy) && (e_cur e + len <? l)); injection E as <-; exact H.
  - unfold move_forward. intro E. apply bind_ok in E as (c & _ & E). apply bind_ok in E as (tm & _ & E). apply bind_ok in E as (sm & Es & E). injection E as <-. exact (opt_map_none _ _ _ H Es).
Qed.
Lemma eloop_no_src m s1 s2 trgt lazy mx : forall fuel e, e_src e = None -> eloop fuel m s1 trgt lazy mx e = eloop fuel m s2 trgt lazy mx e.
Proof.
  induction fuel as [|k IH]; intros e H; cbn [eloop]; destruct (e_cur e + 4 >=? mx); try reflexivity. rewrite (estep_no_src m s1 s2 trgt lazy mx e H). destruct (estep m s2 trgt lazy mx e) as [e1|x| |] eqn:E; cbn [bind]; try reflexivity.
  apply IH. exact (estep_keeps_no_src _ _ _ _ _ _ _ H E).
Qed.
Lemma naive_none s trgt : naive_tests None s trgt = ([], 0, zlen trgt).
Proof. unfold naive_tests. destruct (zlen trgt >? zlen s); reflexivity. Qed.
Lemma encode_inner_no_src m c s1 s2 trgt : ic_src c = None -> ic_naive c = None -> encode_inner m c s1 trgt = encode_inner m c s2 trgt.
Proof.
  intros Hs Hn. unfold encode_inner. rewrite Hs, Hn, !naive_none. destruct (ic_trgt c) as [tc|]; [|reflexivity]. rewrite !andb_false_r. destruct (zlen trgt =? 0); [reflexivity|].
  destruct (do t <- trgt_build m tc trgt 0; Ok (Some t)) as [tm|x| |]; cbn [bind]; try reflexivity. cbv zeta. rewrite (eloop_no_src m s1 s2); [|reflexivity]. rewrite Z.ltb_irrefl. reflexivity.
Qed.
Lemma check_ops_no_dict s1 s2 trgt : forall ops o, existsb is_dict_copy ops = false -> check_ops s1 trgt o ops = check_ops s2 trgt o ops.
Proof.
  induction ops as [|x ops IH]; intros o H; [reflexivity|]. cbn [existsb] in H. apply orb_false_iff in H as [Hx H]. cbn [check_ops]. cbv zeta. destruct (slice trgt o (o + oal x)) as [t|e| |]; cbn [bind]; try reflexivity.
  destruct x as [bs|b n|[|] a n]; cbn [is_dict_copy] in Hx; try discriminate Hx; cbn [bind].
  - destruct (list_eqb t bs); [apply IH; exact H|reflexivity].
  - destruct (forallb (fun y => y =? b) t); [apply IH; exact H|reflexivity].
  - destruct (slice trgt a (a + n)) as [s|e| |]; cbn [bind]; try reflexivity. destruct (list_eqb t s); [apply IH; exact H|reflexivity].
Qed.
Lemma write_sections_no_dict m wr f s1 s2 trgt : forall secs cur, existsb is_dict_copy (concat (map fst secs)) = false -> write_sections m wr f s1 trgt cur secs = write_sections m wr f s2 trgt cur secs.
Proof.
  induction secs as [|[ops h] secs IH]; intros cur H; [reflexivity|]. cbn [map fst concat] in H. rewrite existsb_app in H. apply orb_false_iff in H as [H1 H2]. cbn [write_sections]. cbv zeta. rewrite (check_ops_no_dict s1 s2 trgt ops cur H1), (IH _ H2). reflexivity.
Qed.

(** C87. Without source matching and naive tests the dictionary plays no part: encode does and writes the same whatever it is given (also when it panics), and the patch needs none. *)
Theorem C87_no_source_matching : forall m cd c dict trgt, cf_src c = None -> cf_naive c = None -> Forall is_byte trgt -> zlen trgt < 2 ^ 63 ->
  encode m cd c dict trgt = encode m cd c None trgt.
Proof.
  intros m cd c dict trgt Hs Hn Hb Ht. unfold encode, encode_with. cbv zeta. set (src := match dict with Some d => d | None => [] end).
  rewrite (encode_inner_no_src m (inner_of c) src [] trgt Hs Hn). destruct (encode_inner m (inner_of c) [] trgt) as [cs|e| |] eqn:E; try reflexivity.
  pose proof (@zlen_nil Z) as Hz. destruct (encode_inner_sound m (inner_of c) [] trgt cs Hb ltac:(lia) ltac:(rewrite Hz; lia) E) as [Hcs Ho].
  destruct (translate_ok m [] trgt cs Hb ltac:(lia) ltac:(rewrite Hz; lia) Hcs Ho) as (ops & Et & Hm & Hd). unfold wbind, wlift. rewrite Et. rewrite clamp_idem.
  destruct (sections_in (cf_format c) (cf_segment c) [] trgt ops Hm Ht ltac:(rewrite Hz; lia)) as (Hcat & _ & _).
  rewrite (write_sections_no_dict m _ _ src [] trgt); [reflexivity|]. rewrite Hcat. apply Hd. reflexivity.
Qed.

(** ** Without a target matcher: output copies only repeat one byte *)
Definition c_trgt (c : cand) : bool := match c with MTrgt _ _ _ => true | _ => false end.
Definition no_trgt (l : list cand) : Prop := existsb c_trgt l = false.
Lemma no_trgt_app a b : no_trgt (a ++ b) <-> no_trgt a /\ no_trgt b.
Proof. unfold no_trgt. rewrite existsb_app. apply orb_false_iff. Qed.
Lemma no_trgt_cons a b : no_trgt (a :: b) <-> c_trgt a = false /\ no_trgt b.
Proof. unfold no_trgt. cbn [existsb]. apply orb_false_iff. Qed.
Lemma no_trgt_rev l : no_trgt l -> no_trgt (rev l).
Proof. induction l as [|a l IH]; [auto|]. intro H. apply (proj1 (no_trgt_cons _ _)) in H as [H1 H2]. cbn [rev]. apply no_trgt_app. split; [auto|]. apply no_trgt_cons. split; [exact H1|reflexivity]. Qed.
Lemma clear_no_trgt : forall ops s ops', clear_ops ops s = Ok ops' -> no_trgt ops -> no_trgt ops'.
Proof.
  induction ops as [|c ops IH]; intros s ops' H N; cbn [clear_ops] in H.
  - destruct (0 >=? s); [discriminate|injection H as <-; exact N].
  - destruct (c_pos c >=? s); [|injection H as <-; exact N]. apply (proj1 (no_trgt_cons _ _)) in N as [_ N]. exact (IH _ _ H N).
Qed.
Lemma estep_no_trgt m src trgt lazy mx e e' : e_trgt e = None -> no_trgt (e_ops e) -> estep m src trgt lazy mx e = Ok e' -> e_trgt e' = None /\ no_trgt (e_ops e').
Proof.
  intros H N. unfold estep. destruct (e_st e) as [| |len|].
  - unfold start_new_match. intro E. apply bind_ok in E as ([r b] & _ & E). apply bind_ok in E as (sm & _ & E). apply bind_ok in E as (tm & Es & E). injection E as <-. cbn [e_trgt e_ops]. split; [exact (opt_map_none _ _ _ H Es)|exact N].
  - unfold try_match. intro E. apply bind_ok in E as (e1 & E1 & E).
    assert (H1 : e_trgt e1 = None /\ no_trgt (e_ops e1)).
    { unfold try_run in E1. apply bind_ok in E1 as (r & _ & E1). destruct (e_run e =? 4); [|injection E1 as <-; auto]. apply bind_ok in E1 as (r' & _ & E1). injection E1 as <-. auto. }
    destruct H1 as [H1 N1]. apply bind_ok in E as (o & Eo & E). destruct o as [e2|].
    + injection E as <-. unfold take_run in Eo. destruct ((e_run e =? 4) && (e_run e1 >=? e_min e1)); [|discriminate Eo]. apply bind_ok in Eo as (w & _ & Eo). apply bind_ok in Eo as (u & _ & Eo). injection Eo as <-. split; [exact H1|].
      cbn [found e_ops]. apply no_trgt_cons. auto.
    + apply bind_ok in E as (o & Es & E). destruct o as [e2|].
      * injection E as <-. unfold try_src in Es. destruct (e_src e1) as [s|]; [|discriminate Es]. cbv zeta in Es. destruct (e_cur e1 + 9 <=? mx); [|discriminate Es]. apply bind_ok in Es as (u & _ & Es). apply bind_ok in Es as (r & _ & Es).
        destruct r as [[[sp pre] post]|]; [|discriminate Es]. destruct (post >=? e_min e1); [|discriminate Es]. apply bind_ok in Es as (st & _ & Es). apply bind_ok in Es as (ops & Ec & Es). apply bind_ok in Es as (ss & _ & Es).
        apply bind_ok in Es as (u1 & _ & Es). apply bind_ok in Es as (u2 & _ & Es). injection Es as <-. split; [exact H1|]. cbn [found e_ops]. apply no_trgt_cons. split; [reflexivity|].
        destruct (pre >? 0); [exact (clear_no_trgt _ _ _ Ec N1)|injection Ec as <-; exact N1].
      * apply bind_ok in E as (o & Et & E). unfold try_trgt in Et. rewrite H1 in Et. injection Et as <-. injection E as <-. auto.
  - unfold found_match. intro E. apply bind_ok in E as (l & _ & E). destruct ((lazy >? 0) && (len <? lazy) && (e_cur e + len <? l)); injection E as <-; auto.
  - unfold move_forward. intro E. apply bind_ok in E as (c & _ & E). apply bind_ok in E as (tm & Et & E). apply bind_ok in E as (sm & _ & E). injection E as <-. split; [exact (opt_map_none _ _ _ H Et)|exact N].
Qed.
Lemma eloop_no_trgt m src trgt lazy mx : forall fuel e e', e_trgt e = None -> no_trgt (e_ops e) -> eloop fuel m src trgt lazy mx e = Ok e' -> no_trgt (e_ops e').
Proof.
  induction fuel as [|k IH]; intros e e' H N; cbn [eloop]; destruct (e_cur e + 4 >=? mx); try (intro E; injection E as <-; exact N); try discriminate. intro E. apply bind_ok in E as (e1 & E1 & E).
  destruct (estep_no_trgt _ _ _ _ _ _ _ H N E1) as [H1 N1]. exact (IH _ _ H1 N1 E).
Qed.
Lemma naive_no_trgt t src trgt ops cur mx : naive_tests t src trgt = (ops, cur, mx) -> no_trgt ops.
Proof.
  unfold naive_tests, naive_start, naive_end, or_else. intro H. destruct (zlen trgt >? zlen src); [|injection H as <- _ _; reflexivity]. destruct t as [[]|];
    destruct (starts_with trgt src), (ends_with trgt src); injection H as <- _ _; reflexivity.
Qed.
Lemma encode_inner_no_trgt m c src trgt cs : ic_trgt c = None -> encode_inner m c src trgt = Ok cs -> no_trgt cs.
Proof.
  intros Hc H. unfold encode_inner in H. rewrite Hc in H. destruct (ic_src c) as [sc|]; [|injection H as <-; reflexivity]. destruct ((zlen src =? 0) && true); [injection H as <-; reflexivity|].
  destruct (zlen trgt =? 0); [injection H as <-; reflexivity|]. destruct (naive_tests (ic_naive c) src trgt) as [[ops cur] mx] eqn:En. cbn [bind] in H. apply bind_ok in H as (sm & _ & H). cbv zeta in H. apply bind_ok in H as (e & Ee & H).
  apply bind_ok in H as (u & _ & H). injection H as <-. pose proof (eloop_no_trgt m src trgt _ mx _ (mkE ops cur 4 0 0 StartNewMatch sm None) e eq_refl (naive_no_trgt _ _ _ _ _ _ En) Ee) as N.
  destruct (mx <? zlen trgt); [apply no_trgt_app; split; [|reflexivity]|]; apply no_trgt_rev; exact N.
Qed.
Lemma pass1_no_trgt m : forall rest one r, c_trgt one = false -> no_trgt rest -> pass1 m one rest = Ok r -> no_trgt r.
Proof.
  induction rest as [|two rest IH]; intros one r H N E; cbn [pass1] in E.
  - injection E as <-. apply no_trgt_cons. split; [exact H|reflexivity].
  - apply (proj1 (no_trgt_cons _ _)) in N as [H2 N]. cbv zeta in E. apply bind_ok in E as (u & _ & E). destruct (c_pos one + c_len one <=? c_pos two).
    { apply bind_ok in E as (r' & E' & E). injection E as <-. apply no_trgt_cons. split; [exact H|]. exact (IH _ _ H2 N E'). }
    destruct (match rest with three :: _ => c_pos one + c_len one >? c_pos three | [] => false end); [exact (IH _ _ H N E)|]. apply bind_ok in E as (sp & _ & E).
    destruct ((sp <=? 13) || (c_pos two - c_pos one <=? 4)); [destruct (c_len one <? c_len two); [exact (IH _ _ H2 N E)|exact (IH _ _ H N E)]|].
    apply bind_ok in E as (u1 & _ & E). apply bind_ok in E as (one' & E1 & E). apply bind_ok in E as (two' & E2 & E). apply bind_ok in E as (u2 & _ & E). apply bind_ok in E as (r' & E' & E). injection E as <-.
    apply no_trgt_cons. split.
    + unfold set_len in E1. apply bind_ok in E1 as (v & _ & E1). injection E1 as <-. destruct one; cbn [c_trgt] in *; congruence.
    + refine (IH two' r' _ N E'). unfold set_o_pos in E2. apply bind_ok in E2 as (v & _ & E2). cbv zeta in E2. apply bind_ok in E2 as (n & _ & E2). injection E2 as <-. destruct two; cbn [c_trgt] in *; congruence.
Qed.
(** Every output copy, at its place in the target, makes one byte repeated. *)
Fixpoint out_runs (trgt : list Z) (pos : Z) (ops : list op) : Prop :=
  match ops with
  | [] => True
  | o :: r => (match o with Copy Output _ n => exists b, sub trgt pos n = rep b n | _ => True end) /\ out_runs trgt (pos + op_len o) r
  end.
Lemma out_runs_app trgt : forall a b pos, out_runs trgt pos a -> out_runs trgt (pos + ops_len a) b -> out_runs trgt pos (a ++ b).
Proof.
  induction a as [|o a IH]; intros b pos HA HB; cbn [app]; [cbn [ops_len fold_right] in HB; rewrite Z.add_0_r in HB; exact HB|]. cbn [out_runs] in *. destruct HA as [H1 H2]. split; [exact H1|]. apply IH; [exact H2|].
  cbn [ops_len fold_right] in HB. rewrite <- Z.add_assoc. exact HB.
Qed.
Lemma out_runs_none trgt : forall ops pos, forallb (fun o => negb (is_out_copy o)) ops = true -> out_runs trgt pos ops.
Proof. induction ops as [|o ops IH]; intros pos H; [exact I|]. cbn [forallb] in H. apply andb_prop in H as [H1 H2]. cbn [out_runs]. split; [destruct o as [| |[]]; try exact I; discriminate H1|apply IH; exact H2]. Qed.
Lemma sub_in_rep (l : list Z) pos n b k j : 0 <= pos -> 0 <= k -> 0 <= j -> k + j <= n -> sub l pos n = rep b n -> sub l (pos + k) j = rep b j.
Proof.
  intros Hp Hk Hj Hn H. rewrite <- (sub_rep b n k j) by lia. rewrite <- H. symmetry. apply sub_sub; lia.
Qed.
Lemma out_runs_region trgt b : forall ops pos, 0 <= pos -> Forall op_good ops -> sub trgt pos (ops_len ops) = rep b (ops_len ops) -> out_runs trgt pos ops.
Proof.
  induction ops as [|o ops IH]; intros pos Hp Hg H; [exact I|]. apply Forall_cons_iff in Hg as [[_ H1] H2]. cbn [ops_len fold_right] in H. fold (ops_len ops) in H.
  assert (Hl : 0 <= ops_len ops) by (apply ops_len_nonneg, good_ok; exact H2). cbn [out_runs]. split.
  - destruct o as [| |[] a n]; try exact I. exists b. cbn [op_len] in *. rewrite <- (Z.add_0_r pos). eapply sub_in_rep; [exact Hp|lia|lia| |exact H]. lia.
  - apply IH; [lia|exact H2|]. eapply sub_in_rep; [exact Hp|lia|lia| |exact H]. lia.
Qed.
Lemma makes_len d out ops b : makes d out ops b -> ops_len ops = zlen b.
Proof. intros [Hg Hr]. pose proof (run_ops_len _ _ _ _ (ops_ok_nonneg _ (good_ok _ Hg)) Hr) as L. rewrite zlen_app in L. lia. Qed.
Lemma no_copy_no_out ops : forallb (fun o => negb (is_copy o)) ops = true -> forallb (fun o => negb (is_out_copy o)) ops = true.
Proof. induction ops as [|o ops IH]; [auto|]. cbn [forallb]. intro H. apply andb_prop in H as [H1 H2]. rewrite (IH H2), andb_true_r. destruct o as [| |[]]; [reflexivity..|discriminate H1]. Qed.
Lemma pass2_runs src trgt : Forall is_byte trgt -> zlen trgt < 2 ^ 64 -> zlen src < 2 ^ 64 -> forall cs pos ops,
  Forall (cand_sound src trgt) cs -> disjoint pos cs -> 0 <= pos <= zlen trgt -> no_trgt cs -> pass2 trgt cs pos = Ok ops -> out_runs trgt pos ops.
Proof.
  intros Hb Hlt Hls. induction cs as [|c cs IH]; intros pos ops Hs Hd Hp N E; cbn [pass2] in E.
  - destruct (zlen trgt >? pos) eqn:Eg; [|injection E as <-; exact I]. apply bind_ok in E as (b & Eb & E). apply slice_inv in Eb as (_ & _ & Eb).
    destruct (make_add_ops_ok src b (take pos trgt)) as (ops' & H1 & _ & H3); [subst b; apply Forall_sub; exact Hb|]. rewrite H1 in E. injection E as <-. apply out_runs_none, no_copy_no_out. exact H3.
  - apply Forall_cons_iff in Hs as [Hc Hs]. cbn [disjoint] in Hd. destruct Hd as [Hd1 Hd2]. apply (proj1 (no_trgt_cons _ _)) in N as [Nc N].
    assert (HH := Hc). destruct HH as (C1 & C2 & C3 & C4). unfold c_end in *.
    destruct (c_len c <=? 0) eqn:E0; [apply (IH pos ops Hs); [eapply disjoint_weaken; [|exact Hd2]; lia|lia|exact N|exact E]|].
    apply bind_ok in E as (adds & Ea & E).
    assert (HA : forallb (fun o => negb (is_out_copy o)) adds = true /\ ops_len adds = c_pos c - pos).
    { destruct (c_pos c >? pos) eqn:Eg; [|injection Ea as <-; cbn; split; [reflexivity|lia]]. rewrite slice_ok in Ea by lia. cbn [bind] in Ea.
      destruct (make_add_ops_ok src (sub trgt pos (c_pos c - pos)) (take pos trgt)) as (ops' & H1 & H2 & H3); [now apply Forall_sub|]. rewrite H1 in Ea. injection Ea as <-. split; [apply no_copy_no_out; exact H3|].
      rewrite (makes_len _ _ _ _ H2). apply zlen_sub; lia. }
    destruct HA as [HA1 HA2]. cbv zeta in E. replace (Z.max pos (c_pos c)) with (c_pos c) in E by lia. apply bind_ok in E as (u & _ & E). apply bind_ok in E as (these & Et & E). apply bind_ok in E as (r & Er & E). injection E as <-.
    assert (HT : out_runs trgt (c_pos c) these /\ ops_len these = c_len c).
    { assert (Hz : zlen (take (c_pos c) trgt) = c_pos c) by (apply zlen_take; lia). destruct c as [s n p|s n p|b n p]; cbn [c_pos c_len c_trgt] in *; [|discriminate Nc|].
      - destruct C4 as (A & B & C). destruct (make_copy_ops_ok src Dict s n (take p trgt)) as (ops & H1 & H2 & H3); try lia; [cbn [from_src]; lia|]. rewrite H1 in Et. injection Et as <-. split.
        + apply out_runs_none. apply forallb_forall. intros x Hx. rewrite Forall_forall in H3. specialize (H3 x Hx). destruct x as [| |[]]; try reflexivity. discriminate H3.
        + rewrite (makes_len _ _ _ _ H2). cbn [from_src]. apply zlen_sub; lia.
      - destruct C4 as (A & B). destruct (make_run_ops_ok src b n (take p trgt) A C2) as (ops & H1 & H2 & H3); [lia|]. rewrite Hz in H1. rewrite H1 in Et. injection Et as <-.
        assert (Hl : ops_len ops = n) by (rewrite (makes_len _ _ _ _ H2), zlen_rep; lia). split; [|exact Hl]. apply (out_runs_region trgt b); [lia|apply H2|]. rewrite Hl. exact B. }
    destruct HT as [HT1 HT2]. apply out_runs_app; [apply out_runs_none; exact HA1|]. rewrite HA2. replace (pos + (c_pos c - pos)) with (c_pos c) by lia. apply out_runs_app; [exact HT1|]. rewrite HT2.
    apply (IH (c_pos c + c_len c) r Hs Hd2); [lia|exact N|exact Er].
Qed.
Lemma out_runs_spec trgt : forall pre a n post pos, out_runs trgt pos (pre ++ Copy Output a n :: post) -> exists b, sub trgt (pos + ops_len pre) n = rep b n.
Proof.
  induction pre as [|o pre IH]; intros a n post pos H; cbn [app out_runs] in H.
  - destruct H as [[b Hb] _]. exists b. cbn [ops_len fold_right]. rewrite Z.add_0_r. exact Hb.
  - destruct H as [_ H]. destruct (IH _ _ _ _ H) as (b & Hb). exists b. cbn [ops_len fold_right]. fold (ops_len pre). rewrite Z.add_assoc. exact Hb.
Qed.
Lemma translate_runs m src trgt cs ops : Forall is_byte trgt -> zlen trgt < 2 ^ 64 -> zlen src < 2 ^ 64 -> Forall (cand_sound src trgt) cs -> cands_ordered cs -> no_trgt cs ->
  translate_inner_ops m trgt cs = Ok ops -> out_runs trgt 0 ops.
Proof.
  intros Hb Hlt Hls Hs Ho N H. unfold translate_inner_ops in H. apply bind_ok in H as (r & Er & H). pose proof (zlen_nonneg trgt). destruct cs as [|one rest].
  - injection Er as <-. apply (pass2_runs src trgt Hb Hlt Hls [] 0 ops); [constructor|exact I|lia|reflexivity|exact H].
  - apply Forall_cons_iff in Hs as [H1 H2]. destruct (pass1_ok m src trgt Hlt rest one H1 H2 Ho) as (r' & A & B & C). rewrite A in Er. injection Er as <-. apply (proj1 (no_trgt_cons _ _)) in N as [N1 N2].
    apply (pass2_runs src trgt Hb Hlt Hls r' 0 ops B); [eapply disjoint_weaken; [|exact C]; apply H1|lia|exact (pass1_no_trgt m rest one r' N1 N2 A)|exact H].
Qed.
(** C87. Without target matching the patch copies from the output only to repeat one byte (long runs). *)
Theorem C87_no_target_matching : forall m m' cd c dict trgt patch, comp_lossless cd (cf_comp c) trgt -> Forall is_byte trgt -> zlen trgt < 2 ^ 63 -> zlen (source_of dict) < 2 ^ 63 ->
  cf_trgt c = None -> encode m cd c dict trgt = (patch, Ok tt) ->
  exists secs, patch_read (next_section m' cd) patch secs [] /\
    forall pre a n post, concat (map fst secs) = pre ++ Copy Output a n :: post -> exists b, sub trgt (ops_len pre) n = rep b n.
Proof.
  intros m m' cd c dict trgt patch Hcd Hb Ht Hs Hc H.
  destruct (encode_good m m' cd c dict trgt patch Hcd Hb Ht Hs H) as (cs & ops & Ei & Et & _ & _ & Hcat & _ & _ & Hsg).
  destruct (secs_good_read _ _ _ Hsg []) as (outs & Hr & Hall). rewrite app_nil_r in Hr. exists outs. split; [exact Hr|].
  rewrite (Forall2_fst _ _ _ (fun _ _ X => proj1 X) Hall), sec_with_ops, Hcat. unfold source_of in *. set (src := match dict with Some d => d | None => [] end) in *.
  destruct (encode_inner_sound m (inner_of c) src trgt cs Hb ltac:(lia) ltac:(lia) Ei) as [Hcs Ho]. pose proof (encode_inner_no_trgt m (inner_of c) src trgt cs Hc Ei) as N.
  pose proof (translate_runs m src trgt cs ops Hb ltac:(lia) ltac:(lia) Hcs Ho N Et) as R. intros pre a n post E. rewrite E in R. destruct (out_runs_spec _ _ _ _ _ _ R) as (b & Eb). exists b. exact Eb.
Qed.
(** C87. Without any matching, whatever the naive tests, the patch carries the target as literals: pieces of 65535 bytes and a rest, or a run of 1 if the target is one byte. *)
Fixpoint pieces (fuel : nat) (l : list Z) : list op :=
  match fuel with O => [] | S k => match l with [] => [] | _ => Add (take 65535 l) :: pieces k (drop 65535 l) end end.
Lemma add_chunks_pieces : forall fuel l ops, (length l <= fuel)%nat -> add_chunks fuel l = Ok ops -> ops = pieces fuel l.
Proof.
  induction fuel as [|k IH]; intros l ops Hf H; cbn [add_chunks pieces] in *.
  - destruct l; [|cbn in Hf; lia]. injection H as <-. reflexivity.
  - destruct l as [|x l]; [injection H as <-; reflexivity|]. destruct (zlen (x :: l) =? 0) eqn:E; [rewrite zlen_cons in E; pose proof (zlen_nonneg l); lia|]. apply bind_ok in H as (r & Er & H). injection H as <-.
    unfold MAX_INST_SIZE in *. set (y := x :: l) in *. assert (Hl : zlen y > 0) by (unfold y; rewrite zlen_cons; pose proof (zlen_nonneg l); lia).
    assert (T : take (Z.min (zlen y) 65535) y = take 65535 y /\ drop (Z.min (zlen y) 65535) y = drop 65535 y).
    { destruct (Z.le_gt_cases (zlen y) 65535); [rewrite Z.min_l by lia; split; [rewrite take_all by lia; symmetry; apply take_all; lia|rewrite !drop_all by lia; reflexivity]|rewrite Z.min_r by lia; auto]. }
    destruct T as [-> T2]. rewrite T2 in Er. f_equal. apply IH; [|exact Er]. assert (Hd : zlen (drop 65535 y) = Z.max 0 (zlen y - 65535)) by (rewrite zlen_drop_max; lia). unfold zlen in *. lia.
Qed.
Theorem C87_no_matching : forall m m' cd c dict trgt patch, comp_lossless cd (cf_comp c) trgt -> Forall is_byte trgt -> zlen trgt < 2 ^ 63 -> zlen (source_of dict) < 2 ^ 63 ->
  cf_src c = None -> cf_trgt c = None -> encode m cd c dict trgt = (patch, Ok tt) ->
  exists secs, patch_read (next_section m' cd) patch secs [] /\
    concat (map fst secs) = match trgt with [b] => [Run b 1] | _ => pieces (length trgt) trgt end.
Proof.
  intros m m' cd c dict trgt patch Hcd Hb Ht Hs Hsrc Hc H.
  destruct (encode_good m m' cd c dict trgt patch Hcd Hb Ht Hs H) as (cs & ops & Ei & Et & _ & _ & Hcat & _ & _ & Hsg).
  destruct (secs_good_read _ _ _ Hsg []) as (outs & Hr & Hall). rewrite app_nil_r in Hr. exists outs. split; [exact Hr|].
  rewrite (Forall2_fst _ _ _ (fun _ _ X => proj1 X) Hall), sec_with_ops, Hcat. unfold encode_inner in Ei. cbn [inner_of ic_src ic_trgt] in Ei. rewrite Hsrc, Hc in Ei. injection Ei as <-.
  unfold translate_inner_ops in Et. cbn [bind pass2] in Et. destruct (zlen trgt >? 0) eqn:E.
  - apply bind_ok in Et as (b & Eb & Et). rewrite slice_ok in Eb by lia. injection Eb as <-. rewrite Z.sub_0_r, sub_all in Et by lia. unfold make_add_ops in Et.
    destruct trgt as [|x [|y r]]; [cbn in E; discriminate|injection Et as <-; reflexivity|]. apply add_chunks_pieces; [lia|exact Et].
  - injection Et as <-. assert (trgt = []) by (apply zlen_0; pose proof (zlen_nonneg trgt); lia). subst. reflexivity.
Qed.
Theorem C87_source_not_needed : forall m m' cd c dict trgt patch, comp_lossless cd (cf_comp c) trgt -> cf_src c = None -> cf_naive c = None -> Forall is_byte trgt -> zlen trgt < 2 ^ 63 ->
  encode m cd c dict trgt = (patch, Ok tt) ->
  (exists secs, patch_read (next_section m' cd) patch secs [] /\ existsb is_dict_copy (concat (map fst secs)) = false) /\
  exists p, apply_patch m' cd patch None (mkSink [] 0) = (mkSink trgt p, Ok tt).
Proof.
  intros m m' cd c dict trgt patch Hcd Hs Hn Hb Ht H. rewrite (C87_no_source_matching m cd c dict trgt Hs Hn Hb Ht) in H. exact (C35_no_dictionary_needed m m' cd c None trgt patch Hcd Hb Ht eq_refl H).
Qed.

(** The target repeats 7 eight times, then a block of 16 bytes twice, and is also the dictionary. Target matching alone finds the second block
    (an output copy) and never touches the dictionary; dictionary matching alone, with an unrelated dictionary, leaves both blocks as literals; without
    matching even the run of 7s is literal. *)
Definition c87_block : list Z := [1; 2; 3; 4; 5; 6; 7; 8; 9; 10; 11; 12; 40; 41; 42; 43].
Definition c87_trgt : list Z := [7; 7; 7; 7; 7; 7; 7; 7] ++ c87_block ++ c87_block ++ [1; 1].
Definition c87_cfg (s : option src_config) (t : option trgt_config) : config := mkConfig s t None Interleaved 16777215 None (Some 0).
Example C87_example : forall m,
  encode m no_codecs (c87_cfg None (Some (mkTC 20 8 None))) (Some c87_trgt) c87_trgt = ([0; 4; 42; 200; 7; 144] ++ c87_block ++ [80; 16; 130; 1; 1], Ok tt) /\
  encode m no_codecs (c87_cfg (Some (mkSC 1 None)) None) (Some [5; 5; 5]) c87_trgt = ([0; 2; 42; 200; 7; 162] ++ c87_block ++ c87_block ++ [1; 1], Ok tt) /\
  encode m no_codecs (c87_cfg None None) (Some c87_trgt) c87_trgt = ([0; 1; 42; 170] ++ c87_trgt, Ok tt) /\
  pieces (length c87_trgt) c87_trgt = [Add c87_trgt].
Proof. intros [|]; repeat split; vm_compute; reflexivity. Qed.

Print Assumptions C87_no_source_matching.
Print Assumptions C87_no_target_matching.
Print Assumptions C87_no_matching.
Print Assumptions C87_source_not_needed.
