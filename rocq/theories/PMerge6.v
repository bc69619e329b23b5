(** Merging patches with empty operations, in a build without overflow checks: what the merged operations do. *)
From Verif Require Import Base Spec MCommon MWriter MReader MDecoder MMerger SpecApi SpecMerge PBase PStream PSection PDecoder PPatch PMerge PMerge2 PMerge3 PMerge4 PMerge5.
Ltac Zify.zify_post_hook ::= idtac.
Arguments Z.add : simpl never.
Arguments Z.sub : simpl never.
Arguments Z.mul : simpl never.
Arguments Z.pow : simpl never.

(** An operation at its place of the output: if it is not empty, it makes the bytes of the output there. *)
Definition placed (dict out : list Z) (x : sparse) : Prop :=
  loose (snd x) /\ 0 <= fst x /\ fst x + op_len (snd x) <= zlen out /\ (1 <= op_len (snd x) -> in_place dict out x).
(** Copies from the output are empty. *)
Definition quiet (l : list sparse) : Prop := Forall (fun x => is_out_copy (snd x) = true -> op_len (snd x) = 0) l.
(** A copy from the dictionary starts inside it. *)
Definition inside (dict : list Z) (x : sparse) : Prop := match snd x with Copy Dict a _ => a < zlen dict | _ => True end.

Lemma in_place_placed dict out x : in_place dict out x -> placed dict out x.
Proof. intro H. pose proof H as (Hg & H1 & H2 & _). split; [apply ok_loose, Hg|]. auto. Qed.
Lemma in_place_inside dict out x : in_place dict out x -> inside dict x.
Proof.
  destruct x as [q o]. intros (Hg & _ & _ & Hb). unfold inside. cbn [fst snd] in *. pose proof (good_oal _ Hg) as [_ Hl]. destruct o as [|?|[] a n]; try exact I. cbn [op_len op_bytes] in *.
  destruct (in_range dict a n) eqn:E; [|discriminate]. apply in_range_iff in E; lia.
Qed.
Lemma placed_looses dict out l : Forall (placed dict out) l -> looses l.
Proof. intro H. eapply Forall_impl; [|exact H]. intros ? []; assumption. Qed.

Lemma skip_placed dict out q o k : zlen dict < 2 ^ 64 -> zlen out < 2 ^ 64 -> placed dict out (q, o) -> 0 <= k < op_len o ->
  exists o', op_skip Release o (to_u32 k) = Ok o' /\ placed dict out (q + k, o') /\ op_len o' = op_len o - k /\ kind o' = kind o /\ inside dict (q + k, o').
Proof.
  intros Hd Ho (_ & _ & _ & Hp) Hk. cbn [fst snd] in Hp. destruct (skip_pl Release dict out q o k Hd Ho (Hp ltac:(lia)) Hk) as (o' & E & P & L & K).
  exists o'. split; [exact E|]. split; [now apply in_place_placed|]. split; [exact L|]. split; [exact K|]. now apply in_place_inside in P.
Qed.
Lemma trunc_addr m s a n k o' : op_trunc m (Copy s a n) k = Ok o' -> exists n', o' = Copy s a n'.
Proof. cbn [op_trunc]. intro H. apply bind_ok in H as (n' & _ & H). injection H as <-. eauto. Qed.
Lemma trunc_placed dict out q o k : zlen out < 2 ^ 64 -> placed dict out (q, o) -> 0 <= k <= op_len o ->
  exists o', op_trunc Release o (to_u32 k) = Ok o' /\ placed dict out (q, o') /\ op_len o' = op_len o - k /\ kind o' = kind o /\ (inside dict (q, o) -> inside dict (q, o')).
Proof.
  intros Ho (Hl & Hq & He & Hp) Hk. cbn [fst snd] in *.
  assert (HI : forall o', op_trunc Release o (to_u32 k) = Ok o' -> kind o' = kind o -> inside dict (q, o) -> inside dict (q, o')).
  { intros o' E K. destruct o as [|?|s a n]; [destruct o' as [|?|[]]; try discriminate K; unfold inside; auto..|]. apply trunc_addr in E as (n' & ->). auto. }
  destruct (Z.eq_dec k (op_len o)) as [Ek|Nk].
  - destruct (trunc_loose o k Hl Hk) as (o' & E & P & L & K). exists o'. split; [exact E|]. split; [|split; [exact L|split; [exact K|now apply HI]]].
    unfold placed. cbn [fst snd]. split; [exact P|]. split; [lia|]. split; lia.
  - destruct (trunc_pl Release dict out q o k Ho (Hp ltac:(lia)) ltac:(lia)) as (o' & E & P & L & K). exists o'. split; [exact E|].
    split; [now apply in_place_placed|]. split; [exact L|]. split; [exact K|now apply HI].
Qed.

Lemma exact_loop_placed dict out start end_pos : zlen dict < 2 ^ 64 -> zlen out < 2 ^ 64 -> start <= end_pos -> forall l q r,
  contiguous q l -> Forall (placed dict out) l -> q <= end_pos -> (start <= q \/ start < q + match l with [] => 1 | x :: _ => op_len (snd x) end) ->
  exact_loop Release start end_pos l = Ok (Some r) -> Forall (placed dict out) r /\ (Forall (inside dict) l -> Forall (inside dict) r) /\ (quiet l -> quiet r).
Proof.
  intros Hd Ho Hse. induction l as [|[q0 o] l IH]; intros q r Hc Hp Hq Hh H; [discriminate|].
  destruct Hc as [-> Hc]. inversion Hp as [|? ? H1 H2]; subst. cbn [fst snd] in *. pose proof (loose_oal o (proj1 H1)) as [Eo Hol]. cbn [exact_loop] in H. rewrite Eo in H.
  apply bind_ok in H as ([q1 o1] & S1 & H).
  assert (P1 : q1 = Z.max start q /\ placed dict out (q1, o1) /\ op_len o1 = op_len o - (q1 - q) /\ (inside dict (q, o) -> inside dict (q1, o1)) /\ kind o1 = kind o).
  { destruct (start >? q) eqn:E.
    - destruct (skip_placed dict out q o (start - q) Hd Ho H1 ltac:(lia)) as (o1' & E1 & P1 & P2 & PK & P3). rewrite E1 in S1. cbn [bind] in S1. injection S1 as ? ?; subst.
      replace (q + (q1 - q)) with q1 in * by lia. split; [lia|]. split; [exact P1|]. split; [lia|]. split; [intros _; exact P3|exact PK].
    - injection S1 as ? ?; subst. split; [lia|]. split; [exact H1|]. split; [lia|]. auto. }
  destruct P1 as (Eq1 & P1 & L1 & I1 & K1). apply bind_ok in H as (o2 & S2 & H).
  assert (P2 : placed dict out (q1, o2) /\ (inside dict (q1, o1) -> inside dict (q1, o2)) /\ kind o2 = kind o1 /\ op_len o2 <= op_len o1).
  { destruct (end_pos <? q + op_len o) eqn:E.
    - destruct (trunc_placed dict out q1 o1 (q + op_len o - end_pos) Ho P1 ltac:(lia)) as (o2' & E2 & P2 & L2 & K2 & P3). rewrite E2 in S2. injection S2 as ?; subst. split; [exact P2|]. split; [exact P3|]. split; [exact K2|lia].
    - injection S2 as ?; subst. split; [exact P1|]. split; [auto|]. split; [reflexivity|lia]. }
  destruct P2 as (P2 & I2 & K2 & L2).
  assert (Q2 : quiet ((q, o) :: l) -> is_out_copy o2 = true -> op_len o2 = 0).
  { intros HQ H3. inversion HQ as [|? ? HQ1 HQ2]; subst. cbn [snd] in HQ1. rewrite (kind_out o2 o) in H3 by congruence. specialize (HQ1 H3). pose proof (loose_oal _ (proj1 P2)). cbn [snd] in *. lia. }
  cbn [debug_assert_ bind] in H. destruct (q + op_len o >=? end_pos) eqn:E.
  - injection H as <-. split; [constructor; [exact P2|constructor]|]. split; intro HI; inversion HI; subst; (constructor; [cbn [snd]; auto|constructor]).
  - apply bind_ok in H as (rr & HR & H). destruct rr as [rr|]; [|discriminate]. injection H as <-.
    destruct (IH (q + op_len o) rr Hc H2 ltac:(lia) ltac:(left; lia) HR) as (F1 & F2 & F3). split; [constructor; assumption|]. split; intro HI; inversion HI; subst; (constructor; [cbn [snd]; auto|]); [now apply F2|now apply F3].
Qed.
Lemma exact_slice_placed dict out l start len r : zlen dict < 2 ^ 64 -> zlen out < 2 ^ 64 -> contiguous 0 l -> Forall (placed dict out) l -> 0 <= start -> 0 <= len ->
  get_exact_slice Release l start len = Ok (Some r) ->
  start < slen l /\ start + len <= slen l /\ contiguous start r /\ Forall (placed dict out) r /\ slen r = len /\ kinds_in l r /\ r <> [] /\ zlen r <= zlen l /\ (Forall (inside dict) l -> Forall (inside dict) r) /\ (quiet l -> quiet r).
Proof.
  intros Hd Ho Hc Hp Hs Hl E. pose proof (placed_looses _ _ _ Hp) as Hlo. pose proof (exact_slice_loose l start len Hc Hlo Hs Hl) as HE.
  destruct ((start <? slen l) && (start + len <=? slen l)) eqn:B; [|congruence]. destruct HE as (r' & E' & C & _ & L & K & N & ZL & _). rewrite E in E'. injection E' as <-.
  split; [lia|]. split; [lia|]. split; [exact C|].
  unfold get_exact_slice in E. destruct (find_controlling_loose l 0 start Hc Hlo) as (i & Ei & Hr). rewrite Ei in E. cbn [bind] in E. destruct i as [i|]; [|discriminate].
  destruct Hr as (q & o & Hi & Hn & Hq). pose proof (drop_nth _ _ _ Hi Hn) as Ed.
  assert (El : l = firstn (Z.to_nat i) l ++ @cons sparse (q, o) (drop (i + 1) l)) by (etransitivity; [symmetry; apply (firstn_skipn (Z.to_nat i))|]; f_equal; exact Ed). rewrite Ed in E.
  set (tl := drop (i + 1) l) in *. pose proof (contig_nth _ _ _ _ _ Hc Hn) as Eq. pose proof Hc as Hc'. pose proof Hp as Hp'. rewrite El in Hc', Hp'.
  apply contig_app in Hc' as [_ Hc']. apply Forall_app in Hp' as [_ Hp']. rewrite <- Eq in Hc'.
  destruct (exact_loop_placed dict out start (start + len) Hd Ho ltac:(lia) _ q r Hc' Hp' ltac:(lia) ltac:(right; cbn [snd]; lia) E) as (F1 & F2 & F3).
  split; [exact F1|]. split; [exact L|]. split; [exact K|]. split; [exact N|]. split; [exact ZL|]. split; intro HI; [apply F2|apply F3]; unfold quiet in *; rewrite El in HI; now apply Forall_app in HI as [_ HI].
Qed.

(** ** Moving operations *)
Lemma placed_move_all dict mid out : forall l a p, contiguous a l -> quiet l -> Forall (placed dict mid) l -> 0 <= a -> 0 <= p -> p + slen l <= zlen out ->
  sub out p (slen l) = sub mid a (slen l) -> Forall (placed dict out) (number p (map snd l)).
Proof.
  induction l as [|[q o] l IH]; intros a p Hc Hno Hp Ha H0 Hz Hs; [constructor|]. destruct Hc as [-> Hc]. inversion Hno as [|? ? N1 N2]; subst.
  inversion Hp as [|? ? H1 H2]; subst. rewrite slen_cons in *. cbn [fst snd map number] in *. pose proof H1 as (Hlo & Hq & He & Hin). cbn [fst snd] in *. pose proof (loose_oal _ Hlo) as [_ Hl].
  pose proof (slen_loose _ (placed_looses _ _ _ H2)) as Hsl. constructor.
  - split; [exact Hlo|]. cbn [fst snd]. split; [lia|]. split; [lia|]. intro Hne. apply (pl_move dict mid out a); [|auto|lia|lia|].
    + destruct (is_out_copy o) eqn:Eo; [|reflexivity]. specialize (N1 eq_refl). lia.
    + rewrite <- (take_sub out p (op_len o + slen l)), <- (take_sub mid a (op_len o + slen l)) by lia. now rewrite Hs.
  - apply (IH (a + op_len o)); auto; try lia.
    transitivity (sub (sub out p (op_len o + slen l)) (op_len o) (slen l)); [rewrite sub_sub by lia; reflexivity|]. rewrite Hs, sub_sub by lia. reflexivity.
Qed.
Lemma quiet_ops l : quiet l <-> Forall (fun o => is_out_copy o = true -> op_len o = 0) (map snd l).
Proof. unfold quiet. now rewrite Forall_map. Qed.
Lemma quiet_number ops p : quiet (number p ops) <-> Forall (fun o => is_out_copy o = true -> op_len o = 0) ops.
Proof. now rewrite quiet_ops, number_snd. Qed.
Lemma inside_ops dict l : Forall (inside dict) l <-> Forall (fun o => inside dict (0, o)) (map snd l).
Proof. rewrite Forall_map. split; apply Forall_impl; intros [q o]; exact (fun H => H). Qed.
Lemma quiet_no_out l : no_out l -> quiet l.
Proof. apply Forall_impl. intros x H H'. congruence. Qed.

(** ** deref_copy_o *)
Lemma deref_loop_placed dict out : zlen dict < 2 ^ 64 -> zlen out < 2 ^ 64 -> forall ext output r, Forall (placed dict out) ext -> contiguous (slen output) ext ->
  contiguous 0 output -> Forall (placed dict out) output -> no_out output -> deref_loop Release ext output (slen output) = Ok r ->
  contiguous 0 r /\ Forall (placed dict out) r /\ no_out r /\ slen r = slen output + slen ext /\ (Forall (inside dict) ext -> Forall (inside dict) output -> Forall (inside dict) r).
Proof.
  intros Hd Ho. induction ext as [|[q o] ext IH]; intros output r Hp Hc Hc0 Hpo Hno H; cbn [deref_loop] in H.
  - injection H as <-. split; [exact Hc0|]. split; [exact Hpo|]. split; [exact Hno|]. split; [unfold slen; cbn; lia|auto].
  - destruct Hc as [-> Hc]. inversion Hp as [|? ? H1 H2]; subst. pose proof (slen_loose _ (placed_looses _ _ _ Hpo)) as Hsl. apply bind_ok in H as (res & HR & H).
    assert (Q : looses res /\ slen res = op_len o /\ no_out res /\ Forall (placed dict out) (number (slen output) (map snd res)) /\
      (inside dict (slen output, o) -> Forall (inside dict) output -> Forall (inside dict) res)).
    { assert (QN : is_out_copy o = false -> res = [(0, o)] -> looses res /\ slen res = op_len o /\ no_out res /\ Forall (placed dict out) (number (slen output) (map snd res)) /\
        (inside dict (slen output, o) -> Forall (inside dict) output -> Forall (inside dict) res)).
      { intros Hn ->. split; [constructor; [apply H1|constructor]|]. split; [unfold slen; cbn; lia|]. split; [constructor; [exact Hn|constructor]|].
        split; [constructor; [exact H1|constructor]|]. intros HI _. constructor; [exact HI|constructor]. }
      destruct o as [bs|b n|[] a n]; try (apply QN; [reflexivity|now injection HR]). clear QN.
      apply bind_ok in HR as (rr & HR & HX). destruct rr as [rr|]; [|discriminate]. injection HX as ->.
      destruct H1 as (Hlo & Hq & He & Hin). cbn [fst snd op_len] in *. destruct Hlo as [Ht Hlg]. cbn [op_typed op_len] in *.
      destruct (exact_slice_placed dict out output a n res Hd Ho Hc0 Hpo ltac:(lia) ltac:(lia) HR) as (B1 & B2 & C & P & L & K & N & _ & HI & _).
      pose proof (no_out_kinds _ _ K Hno) as Hnr. split; [now apply placed_looses in P|]. split; [exact L|]. split; [exact Hnr|]. split; [|intros _; exact HI].
      apply (placed_move_all dict out out res a); auto; [now apply quiet_no_out|lia|rewrite L; lia|]. rewrite L. destruct (Z.eq_dec n 0) as [->|Hn0].
      - unfold sub. rewrite !(take_0 0) by lia. reflexivity.
      - destruct (Hin ltac:(lia)) as (_ & _ & _ & Hb). cbn [fst snd op_bytes op_len] in Hb. destruct (in_range (take (slen output) out) a n) eqn:E; [|discriminate].
        injection Hb as Hb. apply in_range_iff in E; [|lia]. rewrite zlen_take in E by lia. rewrite <- Hb. rewrite take_is_sub. rewrite sub_sub by lia. reflexivity. }
    destruct Q as (Lo & Lr & Nr & Pr & Ir). rewrite place_loose in H by exact Lo.
    assert (Esl : slen output + slen res = slen (output ++ number (slen output) (map snd res))) by (rewrite slen_app, slen_number; reflexivity).
    rewrite Esl in H. apply IH in H.
    + destruct H as (C & P & N & L & D). split; [exact C|]. split; [exact P|]. split; [exact N|]. split; [rewrite L, <- Esl, slen_cons; cbn [snd]; lia|].
      intros I1 I2. inversion I1 as [|? ? I3 I4]; subst. apply D; [exact I4|]. apply Forall_app. split; [exact I2|]. apply inside_ops. rewrite number_snd. apply inside_ops. auto.
    + exact H2.
    + rewrite <- Esl, Lr. exact Hc.
    + apply contig_app. split; [exact Hc0|apply number_contig].
    + apply Forall_app. split; [exact Hpo|exact Pr].
    + apply Forall_app. split; [exact Hno|]. apply no_out_number. now apply no_out_ops.
Qed.

(** ** Executing *)
Lemma empty_bytes dict out o : loose o -> op_len o = 0 -> op_bytes dict out o = Some [].
Proof.
  intros _ H. destruct o as [bs|b n|[] a n]; cbn [op_len op_bytes] in *; subst; try reflexivity.
  destruct bs; [reflexivity|]. rewrite zlen_cons in H. pose proof (zlen_nonneg bs). lia.
Qed.
Lemma placed_run dict out : forall l p, contiguous p l -> Forall (placed dict out) l -> 0 <= p -> p + slen l = zlen out -> run_ops dict (take p out) (map snd l) = Some out.
Proof.
  induction l as [|[q o] l IH]; intros p Hc Hp H0 Hz.
  - unfold slen in Hz. cbn in *. rewrite take_all by lia. reflexivity.
  - destruct Hc as [-> Hc]. inversion Hp as [|? ? H1 H2]; subst. destruct H1 as (Hlo & _ & He & Hb). cbn [fst snd map run_ops] in *. pose proof (loose_oal _ Hlo) as [_ Hl].
    rewrite slen_cons in Hz. cbn [snd] in Hz. destruct (Z.eq_dec (op_len o) 0) as [E0|N0].
    + rewrite empty_bytes by assumption. rewrite app_nil_r. rewrite E0, Z.add_0_r in Hc. apply IH; auto; lia.
    + destruct (Hb ltac:(lia)) as (_ & _ & _ & Hb'). cbn [fst snd] in Hb'. rewrite Hb'. rewrite <- take_split by lia. apply IH; auto; lia.
Qed.
Lemma placed_run0 dict out l : contiguous 0 l -> Forall (placed dict out) l -> slen l = zlen out -> run_ops dict [] (map snd l) = Some out.
Proof. intros Hc Hp Hz. rewrite <- (take_0 0 out) by lia. apply placed_run; auto; lia. Qed.
Lemma run_placed dict : forall ops out0 out, Forall op_ok ops -> run_ops dict out0 ops = Some out ->
  Forall (placed dict out) (number (zlen out0) ops) /\ zlen out = zlen out0 + ops_len ops.
Proof.
  induction ops as [|o ops IH]; intros out0 out Hg H; cbn [run_ops] in H.
  - injection H as ->. cbn. split; [constructor|lia].
  - inversion Hg as [|? ? H1 H2]; subst. destruct (op_bytes dict out0 o) as [b|] eqn:E; [|discriminate].
    assert (Hb : zlen b = op_len o) by (apply (op_bytes_len dict out0 o b); [apply op_ok_nonneg, H1|exact E]).
    destruct (IH _ _ H2 H) as [Hp Hz]. rewrite zlen_app, Hb in *. rewrite ops_len_cons. split; [|lia]. cbn [number]. constructor; [|exact Hp].
    destruct (run_ops_prefix _ _ _ _ H) as (t & ->). rewrite !zlen_app in Hz. pose proof (loose_oal _ (ok_loose _ H1)). pose proof (zlen_nonneg out0). pose proof (zlen_nonneg t).
    split; [now apply ok_loose|]. cbn [fst snd]. split; [lia|]. split; [rewrite !zlen_app; lia|]. intro Hne.
    unfold in_place. cbn [fst snd]. split; [split; assumption|]. split; [lia|]. split; [rewrite !zlen_app; lia|].
    rewrite <- app_assoc. rewrite take_app by reflexivity. rewrite E. f_equal. rewrite sub_app_r by lia. rewrite Z.sub_diag. unfold sub.
    rewrite drop_0 by lia. now rewrite take_app by lia.
Qed.

(** ** merge *)
Lemma merge_loop_placed src mid out T P : zlen src < 2 ^ 64 -> zlen mid < 2 ^ 64 -> zlen P < 2 ^ 64 ->
  contiguous 0 P -> Forall (placed src mid) P -> quiet P -> slen P = zlen mid ->
  forall t2 t1 shift ix ins, T = t1 ++ t2 -> contiguous (slen t1) t2 -> Forall (placed mid out) t2 -> quiet t2 -> 0 <= slen t1 ->
  merge_loop Release T P (find_mergeable t2 (zlen t1)) shift = Ok (ix, ins) ->
  let e := expand_loop t2 ins (zlen t1) (slen t1) in
  keys_from (zlen t1) ins /\ contiguous (slen t1) e /\ Forall (placed src out) e /\ quiet e /\ slen e = slen t2 /\ ix = find_mergeable e (zlen t1 + shift) /\ (Forall (inside src) P -> Forall (inside src) e).
Proof.
  intros Hs Hm HzP Hc Hp Hno HL. induction t2 as [|[q o] t2 IH]; intros t1 shift ix ins ET Hc2 Hp2 Hno2 H0 HM.
  - cbn [find_mergeable merge_loop] in HM. injection HM as <- <-. cbn. repeat split; constructor.
  - destruct Hc2 as [-> Hc2]. inversion Hp2 as [|? ? H1 H2]; subst. inversion Hno2 as [|? ? N1 N2]; subst. cbn [snd] in *.
    pose proof H1 as (Hlo & Hq & He & Hin). cbn [fst snd] in *. pose proof (loose_oal _ Hlo) as [Eo Hl].
    assert (Esl : slen (t1 ++ [(slen t1, o)]) = slen t1 + op_len o) by (rewrite slen_app; unfold slen at 2; cbn; lia).
    assert (Ezl : zlen (t1 ++ [(slen t1, o)]) = zlen t1 + 1) by (rewrite zlen_app; reflexivity).
    rewrite <- Esl in Hc2.
    assert (ET' : t1 ++ (slen t1, o) :: t2 = (t1 ++ [(slen t1, o)]) ++ t2) by (rewrite <- app_assoc; reflexivity).
    cbn [find_mergeable] in HM. destruct (is_dict_copy o) eqn:Ed.
    + destruct o as [|?|[] a n]; try discriminate. cbn [app merge_loop] in HM.
      assert (Ei : idx (t1 ++ (slen t1, Copy Dict a n) :: t2) (zlen t1) = Ok (slen t1, Copy Dict a n)).
      { unfold idx. pose proof (zlen_nonneg t1). replace (zlen t1 <? 0) with false by lia. unfold zlen. rewrite Nat2Z.id. rewrite nth_error_app2 by lia. now rewrite Nat.sub_diag. }
      rewrite Ei in HM. cbn [bind snd debug_assert_] in HM. apply bind_ok in HM as (rr & HR & HM). destruct rr as [r|]; [|discriminate].
      destruct Hlo as [Ht Hlg]. cbn [op_typed op_len] in *.
      destruct (exact_slice_placed src mid P a n r Hs Hm Hc Hp ltac:(lia) ltac:(lia) HR) as (B1 & B2 & C & Pr & L & K & N & ZL & HI & HQ).
      assert (Hr1 : 1 <= zlen r) by (destruct r; [contradiction|rewrite zlen_cons; pose proof (zlen_nonneg r); lia]).
      rewrite usub_ok in HM by lia. cbn [bind] in HM. apply bind_ok in HM as ([ix' ins'] & E1 & HM). injection HM as <- <-.
      assert (Nr : quiet r) by now apply HQ. rewrite <- Ezl in E1.
      destruct (IH _ _ _ _ ET' Hc2 H2 N2 ltac:(rewrite Esl; lia) E1) as (Hk & C1 & P1 & Q1 & L1 & X1 & I1). rewrite Ezl in *.
      cbv zeta. split; [cbn [keys_from fst]; split; [lia|exact Hk]|].
      cbn [expand_loop]. rewrite Z.sub_diag. rewrite (take_0 0), (drop_0 0) by lia. cbn [place]. rewrite place_loose by now apply placed_looses in Pr. rewrite L.
      cbn [app]. rewrite (@zlen_nil (Z * op)). replace (zlen t1 + 0 + 1) with (zlen t1 + 1) by lia. change (drop 1 ((slen t1, Copy Dict a n) :: t2)) with t2.
      rewrite Esl in *. cbn [op_len] in *. set (e := expand_loop t2 ins' (zlen t1 + 1) (slen t1 + n)) in *. split; [|split; [|split; [|split; [|split]]]].
      * apply contig_app. split; [apply number_contig|]. rewrite slen_number. fold (slen r). rewrite L. exact C1.
      * apply Forall_app. split; [|exact P1]. apply (placed_move_all src mid out r a); auto; try lia. rewrite L. destruct (Z.eq_dec n 0) as [->|Hn0].
        -- unfold sub. rewrite !(take_0 0) by lia. reflexivity.
        -- destruct (Hin ltac:(lia)) as (_ & _ & _ & Hb). cbn [fst snd op_bytes op_len] in Hb. destruct (in_range mid a n); [|discriminate]. now injection Hb.
      * apply Forall_app. split; [|exact Q1]. apply quiet_number. now apply quiet_ops.
      * rewrite slen_app, slen_number, slen_cons. fold (slen r). cbn [snd op_len]. lia.
      * rewrite find_mergeable_app. f_equal; [apply find_mergeable_ops; now rewrite number_snd|]. rewrite X1. f_equal.
        assert (zlen (number (slen t1) (map snd r)) = zlen r) by (rewrite <- (zlen_map snd (number _ _)), number_snd, zlen_map; reflexivity). lia.
      * intro HP. apply Forall_app. split; [|now apply I1]. apply inside_ops. rewrite number_snd. apply inside_ops. now apply HI.
    + cbn [app] in HM. rewrite <- Ezl in HM.
      destruct (IH _ _ _ _ ET' Hc2 H2 N2 ltac:(rewrite Esl; lia) HM) as (Hk & C1 & P1 & Q1 & L1 & X1 & I1). rewrite Ezl in *.
      cbv zeta. split; [eapply keys_from_le; [|exact Hk]; lia|].
      rewrite expand_cons by exact Hk. rewrite Eo, <- Esl. set (e := expand_loop t2 ins (zlen t1 + 1) (slen (t1 ++ [(slen t1, o)]))) in *. split; [|split; [|split; [|split; [|split]]]].
      * cbn [contiguous]. split; [reflexivity|]. rewrite <- Esl. exact C1.
      * constructor; [|exact P1]. split; [exact Hlo|]. cbn [fst snd]. split; [exact Hq|]. split; [exact He|]. intro Hne. destruct (Hin Hne) as (G1 & G2 & G3 & G4). cbn [fst snd] in *.
        split; [exact G1|]. cbn [fst snd]. split; [exact G2|]. split; [exact G3|]. rewrite <- G4. destruct o as [|?|[]]; try reflexivity. discriminate.
      * constructor; [exact N1|exact Q1].
      * rewrite !slen_cons. cbn [snd]. lia.
      * cbn [find_mergeable]. rewrite Ed. cbn [app]. rewrite X1. f_equal. lia.
      * intro HP. constructor; [|now apply I1]. unfold inside. cbn [snd]. destruct o as [|?|[]]; try exact I. discriminate.
Qed.
