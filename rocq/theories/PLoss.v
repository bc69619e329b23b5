(** How much of a found match the first pass of op making can give up: at most 13 bytes. *)
From Verif Require Import Base Spec SpecEnc SpecLit MCommon MOpMaker MEncInner PBase POpMaker TOpMaker PFind.
Ltac Zify.zify_post_hook ::= idtac.
Arguments Z.add : simpl never.
Arguments Z.sub : simpl never.
Arguments Z.mul : simpl never.
Arguments Z.pow : simpl never.

(** Bytes of the stretch [x, y) covered by (disjoint) candidates. *)
Definition cov1 (x y : Z) (c : cand) : Z := Z.max 0 (Z.min (c_end c) y - Z.max (c_pos c) x).
Definition cov (x y : Z) (cs : list cand) : Z := fold_right (fun c s => cov1 x y c + s) 0 cs.
Lemma cov_cons x y c cs : cov x y (c :: cs) = cov1 x y c + cov x y cs.
Proof. reflexivity. Qed.
Lemma cov_nonneg x y cs : 0 <= cov x y cs.
Proof. induction cs as [|c cs IH]; [cbn; lia|]. rewrite cov_cons. unfold cov1. lia. Qed.
Lemma cov1_mono x x' y c : x <= x' -> cov1 x' y c <= cov1 x y c.
Proof. unfold cov1. lia. Qed.
Lemma cov_mono x x' y cs : x <= x' -> cov x' y cs <= cov x y cs.
Proof. intro H. induction cs as [|c cs IH]; [cbn; lia|]. rewrite !cov_cons. pose proof (cov1_mono x x' y c H). lia. Qed.
Lemma cov_mono_r x y y' cs : y <= y' -> cov x y cs <= cov x y' cs.
Proof. intro H. induction cs as [|c cs IH]; [cbn; lia|]. rewrite !cov_cons. unfold cov1. lia. Qed.

(** One step of the first pass, inverted. *)
Lemma pass1_cases m src trgt (Hl : zlen trgt < 2 ^ 64) one two rest r : cand_sound src trgt one -> cand_sound src trgt two -> cands_ordered (one :: two :: rest) -> pass1 m one (two :: rest) = Ok r ->
  (c_end one <= c_pos two /\ exists r', pass1 m two rest = Ok r' /\ r = one :: r') \/
  (c_pos two < c_end one /\ match rest with three :: _ => c_pos three < c_end one | [] => False end /\ pass1 m one rest = Ok r) \/
  (c_pos two < c_end one /\ match rest with three :: _ => c_end one <= c_pos three | [] => True end /\
   (((c_pos two - c_pos one <= 4 \/ c_end two - c_pos one <= 13) /\ c_len one < c_len two /\ pass1 m two rest = Ok r) \/
    ((c_pos two - c_pos one <= 4 \/ c_end two - c_pos one <= 13) /\ c_len two <= c_len one /\ pass1 m one rest = Ok r) \/
    exists one' two' mid r', c_pos two <= mid < c_end one /\ cand_sound src trgt two' /\ cands_ordered (two' :: rest) /\ c_pos one' = c_pos one /\ c_end one' = mid /\ c_pos two' = mid /\ c_end two' = c_end two /\
      pass1 m two' rest = Ok r' /\ r = one' :: r')).
Proof.
  intros Ho Ht Hs H. pose proof Hs as (Hp & He & Hs'). assert (Hone := Ho). destruct Hone as (O1 & O2 & O3 & _). assert (Htwo := Ht). destruct Htwo as (T1 & T2 & T3 & _).
  cbn [pass1] in H. unfold c_end in *. unfold assert_ at 1 in H. replace (c_pos one <=? c_pos two) with true in H by lia. cbn [bind] in H.
  destruct (c_pos one + c_len one <=? c_pos two) eqn:E1.
  { left. apply bind_ok in H as (r' & Hr & H). injection H as <-. split; [lia|]. now exists r'. }
  destruct (match rest with three :: _ => c_pos one + c_len one >? c_pos three | [] => false end) eqn:E2.
  { right. left. split; [lia|]. split; [destruct rest; [discriminate|lia]|exact H]. }
  assert (E2' : match rest with three :: _ => c_pos one + c_len one <= c_pos three | [] => True end) by (destruct rest; [exact I|lia]).
  rewrite usub_ok in H by lia. cbn [bind] in H. right. right. split; [lia|]. split; [exact E2'|].
  destruct ((c_pos two + c_len two - c_pos one <=? 13) || (c_pos two - c_pos one <=? 4)) eqn:E3.
  { apply orb_true_iff in E3. destruct (c_len one <? c_len two) eqn:E4.
    - left. split; [lia|]. split; [lia|exact H].
    - right. left. split; [lia|]. split; [lia|exact H]. }
  unfold assert_ at 1 in H. replace (c_pos two + c_len two >=? c_pos one + c_len one) with true in H by lia. cbn [bind] in H.
  set (mid := c_pos two + (c_pos one + c_len one - c_pos two) / 2) in *.
  assert (Hmid : c_pos two <= mid < c_pos one + c_len one).
  { unfold mid. pose proof (Z.div_pos (c_pos one + c_len one - c_pos two) 2 ltac:(lia) ltac:(lia)).
    pose proof (Z.div_lt (c_pos one + c_len one - c_pos two) 2 ltac:(lia) ltac:(lia)). lia. }
  apply bind_ok in H as (one' & Eo & H). destruct (cand_sound_trunc src trgt one (mid - c_pos one) one' Ho ltac:(lia) Eo) as (So & Po & Lo & _).
  destruct (cand_sound_shift m src trgt two mid Ht ltac:(unfold c_end; lia) Hl) as (two' & Et & St & Pt & Et'). rewrite Et in H. cbn [bind] in H.
  apply bind_ok in H as (u & _ & H). apply bind_ok in H as (r' & Hr & H). injection H as <-.
  right. right. exists one', two', mid, r'. split; [exact Hmid|]. split; [exact St|]. split.
  { destruct rest as [|three rest]; [exact I|]. cbn in Hs'. destruct Hs' as (A & B & C). cbn. unfold c_end in *. rewrite Pt. split; [lia|]. split; [lia|]. exact C. }
  unfold c_end in *. split; [exact Po|]. split; [lia|]. split; [exact Pt|]. split; [exact Et'|]. split; [exact Hr|reflexivity].
Qed.

Ltac cases H L := destruct H as [(G1 & r' & G2 & ->)|[(G1 & G2 & G3)|(G1 & G2 & [(G3 & G4 & G5)|[(G3 & G4 & G5)|(one' & two' & mid & r' & G3 & G4 & G4' & G5 & G6 & G7 & G8 & G9 & ->)]])]].

(** The stretch lies in [one], all further candidates start at or after its end: it is kept whole, or it is close to the start of [one]. *)
Lemma loss_last m src trgt (Hl : zlen trgt < 2 ^ 64) x y : forall rest one r, cand_sound src trgt one -> Forall (cand_sound src trgt) rest -> cands_ordered (one :: rest) -> Forall (fun c => y <= c_pos c) rest ->
  c_pos one <= x -> y <= c_end one -> pass1 m one rest = Ok r ->
  y - x <= cov x y r \/ y - c_pos one <= 4 \/ y - c_pos one + c_len one <= 12.
Proof.
  induction rest as [|two rest IH]; intros one r Ho Hr Hs Hp Hx He H.
  - injection H as <-. left. cbn [cov fold_right]. unfold cov1. lia.
  - apply Forall_cons_iff in Hr as [Ht Hr]. apply Forall_cons_iff in Hp as [Hp1 Hp]. pose proof Hs as (Q1 & Q2 & Q3).
    pose proof (pass1_cases m src trgt Hl one two rest r Ho Ht Hs H) as HH. cases HH L.
    + left. rewrite cov_cons. pose proof (cov_nonneg x y r'). unfold cov1. lia.
    + apply (IH one r); auto. eapply cands_ordered_skip; exact Hs.
    + right. unfold c_end in *. lia.
    + apply (IH one r); auto. eapply cands_ordered_skip; exact Hs.
    + left. rewrite cov_cons. pose proof (cov_nonneg x y r'). unfold cov1. rewrite G5, G6. lia.
Qed.
(** The stretch lies in [one]. *)
Lemma loss_one m src trgt (Hl : zlen trgt < 2 ^ 64) x y : forall rest one r, cand_sound src trgt one -> Forall (cand_sound src trgt) rest -> cands_ordered (one :: rest) ->
  c_pos one <= x -> y <= c_end one -> pass1 m one rest = Ok r -> y - x - 8 <= cov x y r.
Proof.
  induction rest as [|two rest IH]; intros one r Ho Hr Hs Hx He H.
  - injection H as <-. cbn [cov fold_right]. unfold cov1. lia.
  - apply Forall_cons_iff in Hr as [Ht Hr]. pose proof Hs as (Q1 & Q2 & Q3).
    pose proof (pass1_cases m src trgt Hl one two rest r Ho Ht Hs H) as HH. cases HH L.
    + rewrite cov_cons. pose proof (cov_nonneg x y r'). unfold cov1. lia.
    + apply (IH one r); auto. eapply cands_ordered_skip; exact Hs.
    + assert (Hp : Forall (fun c => y <= c_pos c) rest) by (apply ordered_pos; [destruct rest; [exact I|lia]|eapply cands_ordered_tail; exact Q3]).
      pose proof (loss_last m src trgt Hl (Z.max x (c_pos two)) y rest two r Ht Hr Q3 Hp ltac:(lia) ltac:(lia) G5) as Q.
      pose proof (cov_mono x (Z.max x (c_pos two)) y r ltac:(lia)). pose proof (cov_nonneg x y r). unfold c_end in *. lia.
    + apply (IH one r); auto. eapply cands_ordered_skip; exact Hs.
    + assert (Hp : Forall (fun c => y <= c_pos c) rest) by (apply ordered_pos; [destruct rest; [exact I|lia]|eapply cands_ordered_tail; exact Q3]).
      pose proof (loss_last m src trgt Hl (Z.max x (c_pos two')) y rest two' r' G4 Hr G4' Hp ltac:(lia) ltac:(lia) G9) as Q.
      pose proof (cov_mono x (Z.max x (c_pos two')) y r' ltac:(lia)). pose proof (cov_nonneg x y r').
      rewrite cov_cons. unfold cov1. rewrite G5, G6. destruct G4 as (_ & F1 & _). destruct Ht as (_ & F2 & _). unfold c_end in *. lia.
Qed.
(** The stretch lies in [one] and the next candidate, which overlap. *)
Lemma loss_two m src trgt (Hl : zlen trgt < 2 ^ 64) x y : forall rest one two r, cand_sound src trgt one -> Forall (cand_sound src trgt) (two :: rest) -> cands_ordered (one :: two :: rest) ->
  c_pos one <= x -> y <= c_end two -> c_pos two < c_end one -> pass1 m one (two :: rest) = Ok r -> y - x - 13 <= cov x y r.
Proof.
  induction rest as [|three rest IH]; intros one two r Ho Hr Hs Hx He Hov H; apply Forall_cons_iff in Hr as [Ht Hr]; pose proof Hs as (Q1 & Q2 & Q3);
    pose proof (pass1_cases m src trgt Hl one two _ r Ho Ht Hs H) as HH; cases HH L; try lia; try contradiction.
  - pose proof (loss_one m src trgt Hl (Z.max x (c_pos two)) y [] two r Ht Hr Q3 ltac:(lia) ltac:(lia) G5).
    pose proof (cov_mono x (Z.max x (c_pos two)) y r ltac:(lia)). pose proof (cov_nonneg x y r). unfold c_end in *. lia.
  - injection G5 as <-. cbn [cov fold_right]. unfold cov1. unfold c_end in *. lia.
  - injection G9 as <-. cbn [cov fold_right]. unfold cov1. rewrite G5, G6, G7, G8. lia.
  - apply (IH one three r); auto; [eapply cands_ordered_skip; exact Hs|destruct Q3 as (_ & Q3 & _); lia].
  - pose proof (loss_one m src trgt Hl (Z.max x (c_pos two)) y (three :: rest) two r Ht Hr Q3 ltac:(lia) ltac:(lia) G5).
    pose proof (cov_mono x (Z.max x (c_pos two)) y r ltac:(lia)). pose proof (cov_nonneg x y r). unfold c_end in *. lia.
  - assert (Ho' := Ho). destruct Ho' as (_ & F & _). 
    assert (Hr3 := Hr). apply Forall_cons_iff in Hr3 as [Ht3 Hr3].
    pose proof (pass1_cases m src trgt Hl one three rest r Ho Ht3 (cands_ordered_skip _ _ _ Hs) G5) as K.
    destruct K as [(K1 & r' & K2 & ->)|[(K1 & _)|(K1 & _)]]; try lia. rewrite cov_cons. pose proof (cov_nonneg x y r'). unfold cov1. unfold c_end in *. lia.
  - pose proof (loss_one m src trgt Hl (Z.max x (c_pos two')) y (three :: rest) two' r' G4 Hr G4' ltac:(lia) ltac:(lia) G9) as Q.
    pose proof (cov_mono x (Z.max x (c_pos two')) y r' ltac:(lia)). pose proof (cov_nonneg x y r').
    rewrite cov_cons. unfold cov1. rewrite G5, G6. lia.
Qed.
(** The stretch lies in any of the candidates: at most 13 bytes of it are given up. *)
Lemma loss_any m src trgt (Hl : zlen trgt < 2 ^ 64) c x y : c_pos c <= x -> y <= c_end c -> forall rest one r, cand_sound src trgt one -> Forall (cand_sound src trgt) rest -> cands_ordered (one :: rest) ->
  In c (one :: rest) -> pass1 m one rest = Ok r -> y - x - 13 <= cov x y r.
Proof.
  intros Hx Hy. induction rest as [|two rest IH]; intros one r Ho Hr Hs Hin H.
  - destruct Hin as [<-|[]]. injection H as <-. cbn [cov fold_right]. unfold cov1. lia.
  - destruct Hin as [<- | Hin].
    { pose proof (loss_one m src trgt Hl x y (two :: rest) one r Ho Hr Hs Hx Hy H). lia. }
    assert (Hr' := Hr). apply Forall_cons_iff in Hr' as [Ht Hr']. pose proof Hs as (Q1 & Q2 & Q3).
    assert (Ho' := Ho). destruct Ho' as (_ & F & _). assert (Ht' := Ht). destruct Ht' as (_ & F2 & _).
    pose proof (pass1_cases m src trgt Hl one two rest r Ho Ht Hs H) as HH. cases HH L.
    + rewrite cov_cons. pose proof (IH two r' Ht Hr' Q3 Hin G2). unfold cov1. lia.
    + destruct Hin as [<- | Hin].
      * destruct rest as [|three rest]; [contradiction|]. destruct Q3 as (_ & Q3 & _).
        apply (loss_two m src trgt Hl x y rest one three r); auto; try lia. eapply cands_ordered_skip; exact Hs.
      * apply (IH one r); auto; [eapply cands_ordered_skip; exact Hs|now right].
    + now apply (IH two r).
    + destruct Hin as [<- | Hin].
      * assert (K : r = [one] \/ exists r', r = one :: r').
        { destruct rest as [|three rest]; [injection G5 as <-; now left|]. right.
          assert (Hr3 := Hr'). apply Forall_cons_iff in Hr3 as [Ht3 Hr3].
          pose proof (pass1_cases m src trgt Hl one three rest r Ho Ht3 (cands_ordered_skip _ _ _ Hs) G5) as K.
          destruct K as [(K1 & r' & K2 & ->)|[(K1 & _)|(K1 & _)]]; try lia. now exists r'. }
        destruct K as [-> | (r' & ->)]; rewrite cov_cons; [change (cov x y []) with 0|pose proof (cov_nonneg x y r')]; unfold cov1; unfold c_end in *; lia.
      * apply (IH one r); auto; [eapply cands_ordered_skip; exact Hs|now right].
    + destruct Hin as [<- | Hin].
      * pose proof (loss_one m src trgt Hl (Z.max x (c_pos two')) y rest two' r' G4 Hr' G4' ltac:(lia) ltac:(lia) G9) as Q.
        pose proof (cov_mono x (Z.max x (c_pos two')) y r' ltac:(lia)). pose proof (cov_nonneg x y r').
        rewrite cov_cons. unfold cov1. rewrite G5, G6. lia.
      * rewrite cov_cons. assert (Hin' : In c (two' :: rest)) by now right.
        pose proof (IH two' r' G4 Hr' G4' Hin' G9). unfold cov1. lia.
Qed.

(** ** Second pass: the literals in a stretch *)
Lemma lit_app x y : forall a b pos, literals_in x y pos (a ++ b) = literals_in x y pos a + literals_in x y (pos + ops_len a) b.
Proof.
  induction a as [|o a IH]; intros b pos; cbn [app literals_in].
  - change (ops_len []) with 0. rewrite Z.add_0_r. lia.
  - rewrite IH. change (ops_len (o :: a)) with (op_len o + ops_len a). rewrite (Z.add_assoc pos (op_len o) (ops_len a)), !Z.add_assoc. reflexivity.
Qed.
Lemma lit_none x y : forall ops pos, adds_len ops = 0 -> Forall op_good ops -> literals_in x y pos ops = 0.
Proof.
  induction ops as [|o ops IH]; intros pos H Hg; [reflexivity|]. apply Forall_cons_iff in Hg as [[_ G] Hg]. unfold adds_len in H. cbn [fold_right] in H. fold (adds_len ops) in H.
  assert (A : 0 <= adds_len ops) by (clear; unfold adds_len; induction ops as [|o ops IH]; cbn [fold_right]; [lia|]; destruct o as [bs| |]; cbn [add_len]; try (pose proof (zlen_nonneg bs)); lia).
  cbn [literals_in]. destruct o as [bs|b n|s a n]; cbn [is_add add_len op_len] in *; try (rewrite IH by (auto; lia); lia); lia.
Qed.
Lemma lit_bound x y : forall ops pos, Forall op_good ops -> 0 <= literals_in x y pos ops <= Z.max 0 (Z.min (pos + ops_len ops) y - Z.max pos x).
Proof.
  induction ops as [|o ops IH]; intros pos Hg; [cbn [literals_in]; lia|]. apply Forall_cons_iff in Hg as [[_ G] Hg]. specialize (IH (pos + op_len o) Hg).
  cbn [literals_in]. change (ops_len (o :: ops)) with (op_len o + ops_len ops).
  assert (0 <= ops_len ops) by (clear -Hg; unfold ops_len; induction Hg as [|o ops [_ G] _ IH]; cbn [fold_right]; lia). destruct (is_add o); lia.
Qed.
Lemma lit_pos x y pos ops : Forall op_good ops -> 0 <= literals_in x y pos ops.
Proof. intro H. apply (lit_bound x y ops pos H). Qed.
Lemma makes_len d out ops b : makes d out ops b -> ops_len ops = zlen b.
Proof. intros [Hg H]. apply PDecoder.run_ops_len in H; [|eapply Forall_impl; [|exact Hg]; intros o [Ho _]; now apply PDecoder.op_ok_nonneg]. rewrite zlen_app in H. lia. Qed.
Lemma pass2_lits src trgt x y : Forall is_byte trgt -> zlen trgt < 2 ^ 64 -> zlen src < 2 ^ 64 -> x <= y -> forall cs pos ops,
  Forall (cand_sound src trgt) cs -> disjoint pos cs -> 0 <= pos <= zlen trgt -> pass2 trgt cs pos = Ok ops ->
  literals_in x y pos ops <= Z.max 0 (y - Z.max x pos) - cov x y cs.
Proof.
  intros Hb Hlt Hls Hxy. induction cs as [|c cs IH]; intros pos ops Hs Hd Hp H.
  - destruct (pass2_ok src trgt Hb Hlt Hls [] pos Hs Hd Hp) as (ops' & A & B & _). rewrite A in H. injection H as <-.
    pose proof (makes_len _ _ _ _ B) as L. destruct B as [B _]. pose proof (lit_bound x y ops' pos B) as K. change (cov x y []) with 0.
    rewrite zlen_drop in L by lia. lia.
  - apply Forall_cons_iff in Hs as [Hc Hs]. cbn [disjoint] in Hd. destruct Hd as [Hd1 Hd2]. cbn [pass2] in H. rewrite cov_cons.
    assert (HH := Hc). destruct HH as (C1 & C2 & C3 & C4). unfold c_end in *.
    destruct (c_len c <=? 0) eqn:E0.
    { pose proof (IH pos ops Hs (disjoint_weaken pos (c_pos c + c_len c) cs ltac:(lia) Hd2) Hp H). unfold cov1, c_end. lia. }
    apply bind_ok in H as (adds & Ea & H).
    assert (A : Forall op_good adds /\ ops_len adds = c_pos c - pos).
    { destruct (c_pos c >? pos) eqn:E.
      - apply bind_ok in Ea as (b & Eb & Ea). rewrite slice_ok in Eb by lia. injection Eb as <-.
        destruct (make_add_ops_ok src (sub trgt pos (c_pos c - pos)) []) as (ops' & H1 & H2 & H3); [now apply Forall_sub|]. rewrite H1 in Ea. injection Ea as <-.
        rewrite (makes_len _ _ _ _ H2), zlen_sub by lia. split; [apply H2|lia].
      - injection Ea as <-. split; [constructor|]. change (ops_len []) with 0. lia. }
    destruct A as [A1 A2]. replace (Z.max pos (c_pos c)) with (c_pos c) in H by lia. apply bind_ok in H as (u & _ & H).
    apply bind_ok in H as (these & Ht & H). apply bind_ok in H as (r & Hr & H). injection H as <-.
    assert (T : adds_len these = 0 /\ Forall op_good these /\ ops_len these = c_len c).
    { assert (Hz : zlen (take (c_pos c) trgt) = c_pos c) by (apply zlen_take; lia).
      destruct c as [s n p|s n p|b n p]; cbn [c_pos c_len] in *.
      - destruct C4 as (A & B & C). destruct (make_copy_ops_ok src Dict s n []) as (ops' & H1 & H2 & H3); try lia; [cbn [from_src]; lia|].
        rewrite H1 in Ht. injection Ht as <-. cbn [from_src] in H2. pose proof (makes_len _ _ _ _ H2) as L. rewrite zlen_sub in L by lia.
        split; [exact (copy_chunks_no_add _ _ _ _ _ H1)|]. split; [apply H2|exact L].
      - destruct C4 as (A & B & C). apply bind_ok in Ht as (u' & _ & Ht).
        destruct (make_copy_ops_ok src Output s n trgt) as (ops' & H1 & H2 & H3); try lia; [cbn [from_src]; lia|].
        rewrite H1 in Ht. injection Ht as <-. cbn [from_src] in H2. pose proof (makes_len _ _ _ _ H2) as L. rewrite zlen_sub in L by lia.
        split; [exact (copy_chunks_no_add _ _ _ _ _ H1)|]. split; [apply H2|exact L].
      - destruct C4 as (A & B). destruct (make_run_ops_ok src b n (take p trgt) A C2) as (ops' & H1 & H2 & H3); [lia|].
        rewrite Hz in H1. rewrite H1 in Ht. injection Ht as <-. pose proof (makes_len _ _ _ _ H2) as L. rewrite zlen_rep in L.
        split; [exact (make_run_no_add _ _ _ _ H1)|]. split; [apply H2|lia]. }
    destruct T as (T1 & T2 & T3). pose proof (IH (c_pos c + c_len c) r Hs Hd2 ltac:(lia) Hr) as K.
    rewrite !lit_app, A2, T3, (lit_none x y these _ T1 T2). replace (pos + (c_pos c - pos)) with (c_pos c) by lia.
    pose proof (lit_bound x y adds pos A1) as L. rewrite A2 in L. unfold cov1, c_end in *. lia.
Qed.
(** Both passes. *)
Lemma translate_lits m src trgt cs ops x y K : Forall is_byte trgt -> zlen trgt < 2 ^ 64 -> zlen src < 2 ^ 64 ->
  Forall (cand_sound src trgt) cs -> cands_ordered cs -> 0 <= x <= y ->
  (forall one rest r, cs = one :: rest -> pass1 m one rest = Ok r -> Forall (cand_sound src trgt) r -> y - x - K <= cov x y r) -> (cs = [] -> y - x <= K) ->
  translate_inner_ops m trgt cs = Ok ops -> literals_in x y 0 ops <= K.
Proof.
  intros Hb Hl Hls Hs Ho Hx HK HK0 H. unfold translate_inner_ops in H. destruct cs as [|one rest].
  - cbn [bind] in H. pose proof (pass2_lits src trgt x y Hb Hl Hls ltac:(lia) [] 0 ops (Forall_nil _) I ltac:(pose proof (zlen_nonneg trgt); lia) H).
    specialize (HK0 eq_refl). change (cov x y []) with 0 in *. lia.
  - apply Forall_cons_iff in Hs as [H1 H2]. destruct (pass1_ok m src trgt Hl rest one H1 H2 Ho) as (r & A & B & C).
    rewrite A in H. cbn [bind] in H. specialize (HK one rest r eq_refl A B). assert (H1' := H1). destruct H1' as (H1' & _).
    pose proof (pass2_lits src trgt x y Hb Hl Hls ltac:(lia) r 0 ops B (disjoint_weaken _ _ _ H1' C) ltac:(pose proof (zlen_nonneg trgt); lia) H). lia.
Qed.
(** Of every candidate at most 13 bytes are sent as literals. *)
Lemma translate_cand m src trgt cs ops c : Forall is_byte trgt -> zlen trgt < 2 ^ 64 -> zlen src < 2 ^ 64 ->
  Forall (cand_sound src trgt) cs -> cands_ordered cs -> In c cs ->
  translate_inner_ops m trgt cs = Ok ops -> literals_in (c_pos c) (c_end c) 0 ops <= 13.
Proof.
  intros Hb Hl Hls Hs Ho Hin H. assert (Hc : cand_sound src trgt c) by (rewrite Forall_forall in Hs; now apply Hs). destruct Hc as (C1 & C2 & C3 & _).
  apply (translate_lits m src trgt cs ops (c_pos c) (c_end c) 13 Hb Hl Hls Hs Ho); [unfold c_end; lia| |intros ->; contradiction|exact H].
  intros one rest r -> Hr _. apply Forall_cons_iff in Hs as [H1 H2]. exact (loss_any m src trgt Hl c (c_pos c) (c_end c) ltac:(lia) ltac:(lia) rest one r H1 H2 Ho Hin Hr).
Qed.
