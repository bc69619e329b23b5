(** How much of a large source is searched. Property C116. *)
From Verif Require Import Base Spec SpecEnc MCommon MWriter MReader MDecoder MOpMaker MHasher MHashmap MTrgtMatcher MSrcMatcher MEncInner MEncode MLevels
  SpecApi PBase PHasher PHashmap POpMaker PEncInner PEncode PTotal PFind TEncode TTotal TMatch TOff TMiss TSearch TSrcSearch.
Ltac Zify.zify_post_hook ::= idtac.
Arguments Z.add : simpl never.
Arguments Z.sub : simpl never.
Arguments Z.mul : simpl never.
Arguments Z.pow : simpl never.
Arguments Z.div : simpl never.
Arguments Z.modulo : simpl never.

(** ** Where a search can find something *)
(** C116. What a search at [cur] finds starts in the first window of the source, or less than half a window after the place that is as far into the source as [cur] is into the target. *)
Theorem C116_where_found m c nv lazy src trgt start e s q pre len :
  Forall is_byte trgt -> zlen trgt < 2 ^ 63 -> zlen src < 2 ^ 63 -> about_to_search m c nv lazy src trgt start e s ->
  find_best_src_match m s src trgt = Ok (Some (q, pre, len)) ->
  q < win_size c \/ (win_size c / 2 <= e_cur e /\ q < e_cur e * zlen src / zlen trgt + win_size c / 2).
Proof.
  intros Hb Hz Hs A H. destruct (C106_every_search m c nv lazy src trgt start e s Hb Hz Hs A) as (added & _ & Hf & _ & Hst & Hc0 & Hc9 & E). rewrite E in H. injection H as H. apply search_some in H as (Hi & _).
  apply in_flat_map in Hi as (a & Ha & Hi). rewrite Forall_forall in Hf. pose proof (Hf a Ha) as Hab. clear Hf Ha E A.
  destruct (src_window c src trgt start a) as [[lo hi]|] eqn:W; [|destruct Hi]. destruct (win_size_half c) as [W1 W2]. pose proof (step_pos c) as Hp.
  destruct (window_bounds _ _ _ _ _ _ _ Hst W) as (_ & _ & B3).
  assert (Q : q < hi).
  { unfold indexed_in in Hi. apply in_multiples in Hi as [Hi _]. destruct (9 <=? step_of c); [lia|]. destruct (round_bounds (Z.max 0 (hi - 9)) (step_of c) Hp ltac:(lia)) as (R & _). lia. }
  clear Hi. unfold src_window in W. cbv zeta in W. destruct (a <? win_size c / 2) eqn:Eh; [injection W as <- <-; left; lia|].
  destruct (hash_stop (step_of c) src <=? 0); [discriminate W|]. set (x := (a * zlen src) mod 2 ^ 64 / zlen trgt) in *. destruct (_ || _); [discriminate W|]. injection W as _ <-. right. split; [lia|].
  pose proof (zlen_nonneg src) as Hz0. assert (Hx : 0 <= x <= e_cur e * zlen src / zlen trgt).
  { unfold x. split; [apply Z.div_pos; [apply Z.mod_pos_bound; lia|lia]|]. apply Z.div_le_mono; [lia|]. pose proof (Z.mod_le (a * zlen src) (2 ^ 64) ltac:(nia) ltac:(lia)). nia. }
  destruct (stop_bounds c src) as (T1 & _). destruct (round_bounds (Z.min (x + win_size c / 2) (hash_stop (step_of c) src)) (step_of c) Hp ltac:(lia)) as (R & _). lia.
Qed.
(** For targets of at most half a window: always in the first window. *)
Theorem C116_small_target m c nv lazy src trgt start e s q pre len :
  Forall is_byte trgt -> zlen trgt <= win_size c / 2 -> zlen trgt < 2 ^ 63 -> zlen src < 2 ^ 63 -> about_to_search m c nv lazy src trgt start e s ->
  find_best_src_match m s src trgt = Ok (Some (q, pre, len)) -> q < win_size c.
Proof.
  intros Hb Hh Hz Hs A H. destruct (C116_where_found m c nv lazy src trgt start e s q pre len Hb Hz Hs A H) as [X|[X _]]; [exact X|].
  destruct (C106_every_search m c nv lazy src trgt start e s Hb Hz Hs A) as (_ & _ & _ & _ & _ & _ & Hc9 & _). lia.
Qed.

(** ** Without long matches *)
Definition one_only (c : src_config) (src trgt : list Z) (start mx : Z) (e : est) : Prop :=
  (forall s, e_src e = Some s -> exists n, holds (sm_table s) (map (entry (step_of c) src) (indexed_by c src trgt start (repeat start (S n))))) /\ (e_st e = StartNewMatch -> e_cur e = start \/ mx <= e_cur e + 4).
Lemma find_repeat c src trgt start (f : Z -> bool) n : find f (indexed_by c src trgt start (repeat start (S n))) = find f (indexed_by c src trgt start [start]).
Proof.
  assert (FA : forall l r, find f (l ++ r) = match find f l with Some x => Some x | None => find f r end) by (induction l as [|x l IH]; intro r; cbn [app find]; [reflexivity|]; destruct (f x); auto).
  induction n as [|n IH]; [reflexivity|]. change (repeat start (S (S n))) with (start :: repeat start (S n)). rewrite indexed_cons, FA, IH. destruct (find f (indexed_by c src trgt start [start])); reflexivity.
Qed.
Lemma estep_one m src trgt lazy mx e e' c start : zlen trgt < 2 ^ 63 -> 0 <= start -> start + 9 < zlen trgt -> mx <= zlen trgt -> e_cur e + 4 < mx -> (forall x, cand_sound src trgt x -> c_len x < lazy) -> einv src trgt mx e ->
  (forall s, e_src e = Some s -> ssinv c src trgt start e s) -> one_only c src trgt start mx e -> estep m src trgt lazy mx e = Ok e' -> one_only c src trgt start mx e'.
Proof.
  intros Hz Hst Hst9 Hmx Hc NL V SI [O1 O2] H. pose proof (iv_cur _ _ _ _ V) as Hcur. unfold estep in H. destruct (e_st e) as [| |len|] eqn:Est.
  - unfold start_new_match in H. apply bind_ok in H as ([r b] & _ & H). apply bind_ok in H as (sm & Ek & H). apply bind_ok in H as (tm & _ & H). injection H as <-. split; [|discriminate]. cbn [e_src].
    intros s' ->. destruct (e_src e) as [s|]; [|discriminate Ek]. cbn [opt_map] in Ek. apply bind_ok in Ek as (s2 & Ek & Ek'). injection Ek' as ->. destruct (O2 eq_refl) as [Hc0|Hc0]; [|lia]. rewrite Hc0 in *.
    destruct (O1 s eq_refl) as (n & Hh). destruct (SI s eq_refl) as (C & _). unfold src_seek in Ek. apply bind_ok in Ek as (s1 & E1 & Ek).
    assert (G : exists n', holds (sm_table s1) (map (entry (step_of c) src) (indexed_by c src trgt start (repeat start (S n'))))).
    { destruct (sm_next s <=? start) eqn:En; [|injection E1 as <-; exists n; exact Hh]. destruct (add_start_exact m c src trgt start s start _ s1 C Hst Hh ltac:(lia) E1) as (t & nx & -> & _ & _ & G & _). exists (S n).
      change (repeat start (S (S n))) with (start :: repeat start (S n)). rewrite indexed_cons. exact G. }
    destruct (sm_pos s1 <? sm_max s1); [apply bind_ok in Ek as (h & _ & Ek)|]; injection Ek as <-; exact G.
  - pose proof (try_keeps_src _ _ _ _ _ _ H) as (K1 & K2). split; [rewrite K1; exact O1|]. intro E. exfalso. unfold try_match in H. apply bind_ok in H as (e1 & _ & H).
    apply bind_ok in H as (o & Eo & H). destruct o as [e2|]; [injection H as <-; unfold take_run in Eo; destruct (_ && _); [|discriminate Eo]; apply bind_ok in Eo as (w & _ & Eo); apply bind_ok in Eo as (u & _ & Eo); injection Eo as <-; discriminate E|].
    apply bind_ok in H as (o & Es & H). destruct o as [e2|].
    { injection H as <-. unfold try_src in Es. destruct (e_src e1) as [s|]; [|discriminate Es]. cbv zeta in Es. destruct (e_cur e1 + 9 <=? mx); [|discriminate Es]. apply bind_ok in Es as (u & _ & Es). apply bind_ok in Es as (r & _ & Es).
      destruct r as [[[sp pre] post]|]; [|discriminate Es]. destruct (post >=? e_min e1); [|discriminate Es]. apply bind_ok in Es as (st & _ & Es). apply bind_ok in Es as (ops & Ec & Es). apply bind_ok in Es as (ss & _ & Es).
      apply bind_ok in Es as (u1 & _ & Es). apply bind_ok in Es as (u2 & _ & Es). injection Es as <-. discriminate E. }
    apply bind_ok in H as (o & Et & H). destruct o as [e2|]; injection H as <-; [|discriminate E].
    unfold try_trgt in Et. destruct (e_trgt e1) as [t|]; [|discriminate Et]. cbv zeta in Et. destruct (e_cur e1 + 4 <=? mx); [|discriminate Et]. apply bind_ok in Et as (u & _ & Et). apply bind_ok in Et as (r & _ & Et).
    destruct r as [[st len]|]; [|discriminate Et]. destruct (len >=? e_min e1); [|discriminate Et]. apply bind_ok in Et as (u1 & _ & Et). apply bind_ok in Et as (u2 & _ & Et). injection Et as <-. discriminate E.
  - destruct V as [I1 I2 I3 I4 I5 I6 I7 I8 I9]. rewrite Est in I9. destruct I9 as (J1 & J2 & _). unfold found_match in H. apply bind_ok in H as (l & El & H). apply usub1 in El; [|lia]. subst l.
    assert (Hlen : len < lazy).
    { destruct (e_ops e) as [|x ops]; cbn [last_end] in J1; [lia|]. destruct I4 as [S _]. apply Forall_cons_iff in S as [S _]. pose proof (NL x S) as X. cbn [head_pos_le] in I5. lia. }
    destruct ((lazy >? 0) && (len <? lazy) && (e_cur e + len <? mx - 1)) eqn:Ec; injection H as <-; (split; [exact O1|]); cbn [e_st e_cur]; [discriminate|]. intros _. right. lia.
  - unfold move_forward in H. apply bind_ok in H as (b & _ & H). apply bind_ok in H as (tm & _ & H). apply bind_ok in H as (sm & Ef & H). injection H as <-. split; [|discriminate]. cbn [e_src]. intros s' ->.
    destruct (e_src e) as [s|]; [|discriminate Ef]. cbn [opt_map] in Ef. apply bind_ok in Ef as (s2 & Ef & Ef'). injection Ef' as ->. unfold src_forward in Ef.
    destruct (sm_pos s <? sm_max s); [apply bind_ok in Ef as (o & _ & Ef); apply bind_ok in Ef as (n & _ & Ef)|]; injection Ef as <-; exact (O1 s eq_refl).
Qed.
(** Nothing of [n] bytes can be copied or run-length coded: no run, no common part with the source, no repeat. *)
Definition nothing_repeats (n : Z) (l : list Z) : Prop := forall p q, 0 <= p -> p + n <= q -> q + n <= zlen l -> sub l p n <> sub l q n.
(** C116. In a target without runs, copies or repeats of lazy_escape_len bytes, every search, wherever in the target, is over the window of the first position alone. *)
Theorem C116_without_long_matches m c nv lazy src trgt start e s :
  Forall is_byte trgt -> zlen trgt < 2 ^ 63 -> zlen src < 2 ^ 63 -> 0 < lazy -> no_run lazy trgt -> nothing_common lazy src trgt -> nothing_repeats lazy trgt ->
  about_to_search m c nv lazy src trgt start e s ->
  find_best_src_match m s src trgt = Ok (src_search (slot_bits c (zlen src)) src trgt (indexed_by c src trgt start [start]) (e_cur e)).
Proof.
  intros Hb Hz Hs HL NR NC NT (ops & mx & s0 & tm & Hn & Hst & B & Htm & V & Est & Hmx & Es). pose proof (zlen_nonneg trgt) as Hz0.
  destruct (naive_tests_ok src trgt _ _ _ _ Hn) as (N1 & N2 & N3 & _). assert (Hst0 : 0 <= start) by lia. assert (Hm : mx <= zlen trgt) by lia.
  assert (NL : forall x, cand_sound src trgt x -> c_len x < lazy).
  { intros x Sx. destruct (c_trgt x) eqn:Ex; [|exact (no_long src trgt lazy HL NR NC x Sx Ex)]. destruct x as [a n p|a n p|b n p]; cbn [c_trgt] in Ex; try discriminate Ex. destruct Sx as (S1 & S2 & S3 & S4 & S5 & S6). unfold c_end in *. cbn [c_pos c_len] in *.
    destruct (Z.lt_ge_cases n lazy) as [|X]; [assumption|exfalso]. apply (NT a p); [lia|lia|lia|]. pose proof (f_equal (take lazy) S6) as E'. unfold sub in E' |- *. rewrite !take_take in E'. rewrite Z.min_l in E' by lia. symmetry. exact E'. }
  assert (I0 : einv src trgt mx (mkE ops start 4 0 0 StartNewMatch (Some s0) tm)).
  { apply (einv_start src trgt nv); [exact Hn|exact (src_build_rel m c src trgt start s0 Hst0 B)|]. destruct Htm as [->|(tc & t & Et & ->)]; [exact I|exact (trgt_build_rel m tc trgt start t Hst0 Et)]. }
  destruct (src_build_exact m c src trgt start s0 Hs Hst0 Hst B) as (t0 & nx & Eq & C & H & Hnx).
  assert (S0 : ssinv c src trgt start (mkE ops start 4 0 0 StartNewMatch (Some s0) tm) s0).
  { split; [exact C|]. rewrite Eq. cbn [sm_hash sm_pos sm_table sm_next e_cur]. split; [reflexivity|]. split; [lia|].
    exists [start]. split; [exists []; reflexivity|]. split; [constructor; [lia|constructor]|]. split; [exact H|]. intros [O1 O2]. split; [reflexivity|]. rewrite Hnx. unfold src_window. cbv zeta. replace (start <? win_size c / 2) with true by lia.
    replace (hash_stop (step_of c) src <=? Z.min (win_size c) (hash_stop (step_of c) src)) with true by lia. reflexivity. }
  assert (P0 : one_only c src trgt start mx (mkE ops start 4 0 0 StartNewMatch (Some s0) tm)).
  { split; cbn [e_src e_st e_cur]; [|auto]. intros s' E. injection E as <-. exists O. rewrite Eq. exact H. }
  assert (G : forall e, visited m src trgt lazy mx (mkE ops start 4 0 0 StartNewMatch (Some s0) tm) e -> einv src trgt mx e /\ one_only c src trgt start mx e /\ exists s, e_src e = Some s /\ ssinv c src trgt start e s).
  { clear e s V Est Hmx Es. intros e V. induction V as [|e e' V [IV (OO & s & Es & SI)] Hlt Hstep]; [split; [exact I0|split; [exact P0|exists s0; auto]]|].
    split; [exact (estep_inv m src trgt lazy mx e e' Hb ltac:(lia) ltac:(lia) ltac:(lia) Hlt IV Hstep)|]. split; [|exact (estep_ssinv m src trgt lazy mx e e' c start s Hz Hst0 Hst Hm Hlt IV Es SI Hstep)].
    apply (estep_one m src trgt lazy mx e e' c start Hz Hst0 Hst Hm Hlt NL IV); [|exact OO|exact Hstep]. intros s' E'. rewrite Es in E'. injection E' as <-. exact SI. }
  destruct (G e V) as (IV & (OO & _) & s' & Es' & Cf & Hh & Hp9 & _). rewrite Es in Es'. injection Es' as <-. destruct (OO s Es) as (n & Ho).
  pose proof (iv_cur _ _ _ _ IV) as Hcur. pose proof (iv_sm _ _ _ _ IV) as R. rewrite Es, Est in R. cbn [is_start] in R. destruct R as (R1 & R2 & R3). assert (Hpc : sm_pos s = e_cur e) by lia.
  rewrite <- Hpc. rewrite (src_find_exact m c src trgt start s _ Cf Ho); [|apply indexed_ok; exact Hst0|exact Hh|lia|exact Hp9|lia|lia]. unfold src_search. rewrite find_repeat. reflexivity.
Qed.
(** The window of the first position: usually the beginning of the source. *)
Lemma first_window c src trgt start : start < win_size c / 2 -> indexed_by c src trgt start [start] = indexed_in (step_of c) 0 (Z.min (win_size c) (hash_stop (step_of c) src)).
Proof. intro H. unfold indexed_by, src_window. cbn [flat_map]. cbv zeta. replace (start <? win_size c / 2) with true by lia. apply app_nil_r. Qed.

(** ** If the first window has nothing in common with the target *)
Definition first_words (c : src_config) (src trgt : list Z) : Prop := forall p q, 0 <= p < win_size c -> p mod step_of c = 0 -> p + 9 <= zlen src -> 0 <= q -> q + 9 <= zlen trgt -> sub src p 9 <> sub trgt q 9.
Lemma src_build_table m c src trgt s : zlen src < 2 ^ 63 -> src_build m c src 0 trgt = Ok s ->
  sm_step s = step_of c /\ 0 < sm_next s /\ holds (sm_table s) (map (entry (step_of c) src) (indexed_in (step_of c) 0 (Z.min (win_size c) (hash_stop (step_of c) src)))).
Proof.
  intros Hl H. pose proof (step_pos c) as Hs. destruct (win_size_half c) as [W1 W2]. pose proof (zlen_nonneg src) as Hz. unfold src_build in H. cbv zeta in H. fold (step_of c) in H. apply bind_ok in H as (win & Hw & H).
  assert (Ew : win = win_size c).
  { unfold win_size. destruct (sc_win c) as [n|]; [|injection Hw as <-; reflexivity]. apply bind_ok in Hw as (p & Ep & Hw). injection Hw as <-. unfold MIN_SRC_WIN_SIZE. destruct (n <=? 2 ^ 63) eqn:En; [rewrite (log2_next m n p) by (try exact Ep; lia); reflexivity|].
    unfold next_power_of_two in Ep. replace (n <=? 1) with false in Ep by lia. replace (n >? 2 ^ 63) with true in Ep by lia. destruct m; [discriminate Ep|]. injection Ep as <-. reflexivity. }
  subst win. apply bind_ok in H as ([hash pos] & _ & H). apply bind_ok in H as (p & Ep & H). pose proof (log2_next m (zlen src) p ltac:(lia) Ep) as ->. apply bind_ok in H as (tb & Etb & H).
  rewrite align_round in H by exact Hs. fold (hash_stop (step_of c) src) in H. rewrite !Z.shiftr_div_pow2 in H, Etb by lia. change (2 ^ 1) with 2 in *.
  set (cap := Z.min (2 ^ Z.log2_up (zlen src) / 2) (win_size c) / step_of c) in *.
  assert (Hcap : 0 <= cap < 2 ^ 63).
  { destruct (next_pow2_ok m (zlen src) ltac:(lia)) as (k & Ek & Hk & _). rewrite Ek in Ep. injection Ep as Ep. pose proof (shiftr1_range k Hk) as R. rewrite Z.shiftr_div_pow2 in R by lia. change (2 ^ 1) with 2 in R. rewrite Ep in R.
    unfold cap. split; [apply Z.div_pos; lia|]. apply Z.div_lt_upper_bound; [lia|]. nia. }
  destruct (table_new_ok m cap false Hcap) as (tb' & Et & Hg & Hb & _). rewrite Etb in Et. injection Et as <-. cbn [table_width] in Hg.
  assert (Hbits : 64 - t_shift tb = slot_bits c (zlen src)).
  { unfold slot_bits. fold cap. unfold table_new, table_bits in Etb. apply bind_ok in Etb as (bits & Eb & Etb). apply bind_ok in Eb as (q & Eq & Eb). pose proof (log2_next m (cap + 1) q ltac:(lia) Eq) as ->.
    assert (Hq : 0 <= Z.log2_up (cap + 1) <= 63). { split; [apply Z.log2_up_nonneg|]. replace 63 with (Z.log2_up (2 ^ 63)) by reflexivity. apply Z.log2_up_le_mono. lia. }
    assert (0 < 2 ^ Z.log2_up (cap + 1)) by (apply Z.pow_pos_nonneg; lia). replace (2 ^ Z.log2_up (cap + 1) =? 0) with false in Eb by lia. rewrite Z.log2_pow2 in Eb by lia. injection Eb as <-.
    rewrite usub_ok in Etb by lia. cbn [bind] in Etb. injection Etb as <-. cbn [t_shift]. lia. }
  match type of H with add_start_positions m ?x _ _ = _ => assert (C0 : sm_cfg c src trgt 0 x) by (constructor; cbn [sm_step sm_max sm_src_len sm_trgt_len sm_half sm_max_end sm_win_end sm_max_match sm_table]; try reflexivity; [exact Hg|exact Hbits]);
    assert (H0 : holds (sm_table x) (map (entry (step_of c) src) [])) by (intro i; cbn [sm_table map find]; rewrite Hb; reflexivity); pose proof (add_start_exact m c src trgt 0 x 0 [] s C0 ltac:(lia) H0 ltac:(cbn [sm_next]; lia) H) as A end.
  destruct A as (t & next & -> & A1 & A2 & A3 & A4). rewrite app_nil_r, first_window in A3 by lia. cbn [sm_set_next sm_set_table sm_step sm_next sm_table]. split; [reflexivity|]. split; [|exact A3].
  unfold src_window in A4. cbv zeta in A4. replace (0 <? win_size c / 2) with true in A4 by lia. subst next. unfold USIZE_MAX. destruct (_ <=? _); lia.
Qed.
Lemma get_held t l h p : holds t l -> (forall x, In x l -> 0 <= snd x) -> table_get t h = Ok (Some p) -> exists x, In x l /\ snd x = p.
Proof.
  intros H N E. unfold table_get in E. cbv zeta in E. destruct (_ && _); [|discriminate]. injection E as E. rewrite H in E. destruct (find _ l) as [[h' p']|] eqn:F; [|discriminate]. apply find_some in F as [Hi _]. specialize (N _ Hi). cbn [snd] in N.
  unfold bucket_get in E. cbn [b_value b_hash] in E. replace (p' + 1 =? 0) with false in E by lia. destruct (h' =? h); [|discriminate]. injection E as <-. exists (h', p'). split; [exact Hi|cbn [snd]; lia].
Qed.
Lemma first_finds_none m c src trgt s r : zlen src < 2 ^ 64 -> zlen trgt < 2 ^ 64 -> first_words c src trgt -> 0 <= sm_pos s -> sm_step s = step_of c ->
  holds (sm_table s) (map (entry (step_of c) src) (indexed_in (step_of c) 0 (Z.min (win_size c) (hash_stop (step_of c) src)))) -> find_best_src_match m s src trgt = Ok r -> r = None.
Proof.
  intros Hs Ht F Hp Hst H E. pose proof (step_pos c) as Hs1. unfold find_best_src_match in E. apply bind_ok in E as ([p|] & Et & E); [|injection E as <-; reflexivity]. cbv zeta in E. apply bind_ok in E as ([[pre post]|] & Ex & E); [|injection E as <-; reflexivity]. exfalso.
  destruct (stop_bounds c src) as (T1 & T2 & T3). destruct (win_size_half c) as [W1 W2].
  assert (K : forall x, In x (indexed_in (step_of c) 0 (Z.min (win_size c) (hash_stop (step_of c) src))) -> 0 <= x < win_size c /\ x mod step_of c = 0).
  { intros x Hx. unfold indexed_in in Hx. apply in_multiples in Hx as [X1 X2]. split; [|exact X2]. destruct (9 <=? step_of c); [lia|]. destruct (round_bounds (Z.max 0 (Z.min (win_size c) (hash_stop (step_of c) src) - 9)) (step_of c) Hs1 ltac:(lia)). lia. }
  destruct (get_held _ _ _ _ H ltac:(intros y Hy; apply in_map_iff in Hy as (x & <- & Hx); cbn [entry snd]; apply Z.div_pos; [apply (K x Hx)|lia]) Et) as (y & Hy & Ep). apply in_map_iff in Hy as (x & <- & Hx). cbn [entry snd] in Ep. destruct (K x Hx) as [K1 K2].
  rewrite Hst in Ex. replace (p * step_of c) with x in Ex by (pose proof (Z.div_mod x (step_of c) ltac:(lia)); subst p; lia).
  unfold extend_src_match in Ex. apply bind_ok in Ex as (a & Ea & Ex). apply bind_ok in Ex as (b & Eb & Ex). destruct (negb (list_eqb a b)) eqn:En; [discriminate Ex|]. apply negb_false_iff, list_eqb_eq in En.
  apply slice_inv in Ea as (A1 & A2 & A3). apply slice_inv in Eb as (B1 & B2 & B3). replace (x + 9 - x) with 9 in A3 by lia. replace (sm_pos s + 9 - sm_pos s) with 9 in B3 by lia. apply (F x (sm_pos s)); [lia|exact K2|lia|lia|lia|congruence].
Qed.
Definition winv (c : src_config) (src trgt : list Z) (e : est) : Prop := e_ops e = [] /\
  match e_trgt e with None => True | Some t => far_apart trgt /\ tm_hash t = poll trgt (e_cur e) /\ tm_dirty trgt (e_cur e) t /\ (e_st e = StartNewMatch -> tm_pos t = 0) end /\
  match e_src e with None => True | Some s => sm_step s = step_of c /\ 0 < sm_next s /\ holds (sm_table s) (map (entry (step_of c) src) (indexed_in (step_of c) 0 (Z.min (win_size c) (hash_stop (step_of c) src)))) end /\
  (e_st e = StartNewMatch -> e_cur e = 0) /\ (forall n, e_st e <> FoundMatch n).
Lemma estep_winv m c src trgt lazy mx e e' : zlen src < 2 ^ 64 -> zlen trgt < 2 ^ 64 -> first_words c src trgt -> no_run 4 trgt -> mx <= zlen trgt -> e_cur e + 4 < mx -> einv src trgt mx e -> winv c src trgt e ->
  estep m src trgt lazy mx e = Ok e' -> winv c src trgt e'.
Proof.
  intros Hs Ht F NR Hmx Hc V (N & D & S & S0 & S1). destruct V as [I1 I2 I3 I4 I5 I6 I7 I8 I9]. unfold estep. destruct (e_st e) as [| |len|] eqn:Est; cbn [is_start] in *.
  - specialize (S0 eq_refl). unfold start_new_match. intro E. apply bind_ok in E as ([r b] & _ & E). apply bind_ok in E as (sm & Ek & E). apply bind_ok in E as (tm & Es & E). injection E as <-. split; [exact N|]. cbn [e_trgt e_src e_cur e_st]. split; [|split; [|split; discriminate]].
    + destruct (e_trgt e) as [t|]; cbn [opt_map] in Es; [|injection Es as <-; exact I]. apply bind_ok in Es as (t1 & Et & Es). injection Es as <-. destruct D as (D0 & D1 & D2 & D3). specialize (D3 eq_refl). destruct I8 as (R1 & R2 & R3).
      unfold trgt_seek in Et. replace (tm_pos t <? tm_max t) with true in Et by lia. replace (tm_pos t + 4 >? e_cur e) with true in Et by lia. rewrite S0, D3 in Et. change (Z.to_nat (0 - 0)) with O in Et. cbn [roll_small bind] in Et. injection Et as <-.
      rewrite S0 in *. cbn [tm_set_fwd tm_hash]. split; [exact D0|]. split; [exact D1|]. split; [exact D2|discriminate].
    + destruct (e_src e) as [s|]; cbn [opt_map] in Ek; [|injection Ek as <-; exact I]. apply bind_ok in Ek as (s2 & Ek & Ek'). injection Ek' as <-. destruct S as (A & B & C). unfold src_seek in Ek. replace (sm_next s <=? e_cur e) with false in Ek by lia. cbn [bind] in Ek.
      destruct (sm_pos s <? sm_max s); [apply bind_ok in Ek as (h & _ & Ek)|]; injection Ek as <-; split; auto.
  - unfold try_match. intro E. destruct I9 as (_ & R9). apply bind_ok in E as (e1 & E1 & E). pose proof (try_run_same _ _ _ _ E1) as (H2 & H3 & H4 & H5 & H1). destruct R9 as (Q1 & Q2 & Q3).
    assert (NR4 : (e_run e =? 4) = false).
    { apply Z.eqb_neq. intro X. rewrite X in Q3. apply (NR (e_byte e) (e_cur e)); [lia|lia|]. replace (e_cur e) with (e_cur e + 4 - 4) by lia. apply Q3. lia. }
    rewrite NR4 in E. apply bind_ok in E as (o & Eo & E). cbn [take_run andb] in Eo. unfold take_run in Eo. cbn [andb] in Eo. injection Eo as <-. cbv iota in E.
    apply bind_ok in E as (o & Es & E).
    assert (X : o = None).
    { unfold try_src in Es. rewrite H4 in Es. destruct (e_src e) as [s|]; [|injection Es as <-; reflexivity]. cbv zeta in Es. destruct (e_cur e1 + 9 <=? mx); [|injection Es as <-; reflexivity]. apply bind_ok in Es as (u & _ & Es). apply bind_ok in Es as (r & Er & Es).
      destruct S as (A & B & C). destruct I7 as (_ & P & _). apply (first_finds_none m c src trgt s r Hs Ht F P A C) in Er. subst r. injection Es as <-. reflexivity. }
    subst o. cbv iota in E. apply bind_ok in E as (o & Et & E).
    assert (X : o = None).
    { unfold try_trgt in Et. rewrite H1, H3 in Et. destruct (e_trgt e) as [t|]; [|injection Et as <-; reflexivity]. cbv zeta in Et. destruct (e_cur e + 4 <=? mx); [|injection Et as <-; reflexivity]. apply bind_ok in Et as (u & _ & Et). apply bind_ok in Et as (r & Er & Et).
      destruct D as (D0 & D1 & D2 & _). destruct I8 as (R1 & R2 & R3). rewrite <- R3 in D1, D2. rewrite (find_dirty trgt m t (e_min e1) r D0) in Et; [injection Et as <-; reflexivity|lia|exact D2|exact D1|exact Er]. }
    subst o. cbv iota in E. injection E as <-. split; cbn [e_ops e_cur e_trgt e_st e_src]; [congruence|]. rewrite H1, H3, H4. split; [|split; [exact S|split; discriminate]].
    destruct (e_trgt e) as [t|]; [|exact I]. destruct D as (D0 & D1 & D2 & _). split; [exact D0|]. split; [exact D1|]. split; [exact D2|discriminate].
  - exfalso. apply (S1 len). reflexivity.
  - unfold move_forward. intro E. apply bind_ok in E as (b & _ & E). apply bind_ok in E as (tm & Et & E). apply bind_ok in E as (sm & Ek & E). injection E as <-. split; [exact N|]. cbn [e_trgt e_src e_cur e_st]. split; [|split; [|split; discriminate]].
    + destruct (e_trgt e) as [t|]; cbn [opt_map] in Et; [|injection Et as <-; exact I]. apply bind_ok in Et as (t1 & Ef & Et). injection Et as <-. destruct D as (D0 & A & B & _). destruct I8 as (R1 & R2 & R3).
      destruct (forward_dirty trgt t (e_cur e) t1) as [X Y]; try assumption; try lia. split; [exact D0|]. split; [exact X|]. split; [exact Y|discriminate].
    + destruct (e_src e) as [s|]; cbn [opt_map] in Ek; [|injection Ek as <-; exact I]. apply bind_ok in Ek as (s2 & Ek & Ek'). injection Ek' as <-. destruct S as (A & B & C). unfold src_forward in Ek.
      destruct (sm_pos s <? sm_max s); [apply bind_ok in Ek as (o & _ & Ek); apply bind_ok in Ek as (n & _ & Ek)|]; injection Ek as <-; split; auto.
Qed.
Lemma eloop_winv m c src trgt lazy mx : Forall is_byte trgt -> zlen src < 2 ^ 64 -> zlen trgt < 2 ^ 64 -> first_words c src trgt -> no_run 4 trgt -> mx <= zlen trgt -> forall fuel e e', einv src trgt mx e -> winv c src trgt e ->
  eloop fuel m src trgt lazy mx e = Ok e' -> e_ops e' = [].
Proof.
  intros Hb Hs Ht F NR Hmx. induction fuel as [|k IH]; intros e e' V D; cbn [eloop]; destruct (e_cur e + 4 >=? mx) eqn:Ec; try (intro E; injection E as <-; exact (proj1 D)); try discriminate. intro E. apply bind_ok in E as (e1 & E1 & E).
  apply (IH e1 e'); [exact (estep_inv m src trgt lazy mx e e1 Hb Ht Hs Hmx ltac:(lia) V E1)|exact (estep_winv m c src trgt lazy mx e e1 Hs Ht F NR Hmx ltac:(lia) V D E1)|exact E].
Qed.
Lemma encode_inner_window m c sc src trgt cs : Forall is_byte trgt -> zlen trgt < 2 ^ 63 -> zlen src < 2 ^ 63 -> naive_tests (ic_naive c) src trgt = ([], 0, zlen trgt) -> ic_src c = Some sc -> (ic_trgt c = None \/ far_apart trgt) ->
  first_words sc src trgt -> no_run 4 trgt -> encode_inner m c src trgt = Ok cs -> cs = [].
Proof.
  intros Hb Ht Hs Hn Hsc HF F NR H. unfold encode_inner in H. rewrite Hn, Hsc in H.
  assert (G : forall tm s e, match ic_trgt c with None => Ok None | Some tc => do t <- trgt_build m tc trgt 0; Ok (Some t) end = Ok tm -> src_build m sc src 0 trgt = Ok s ->
    eloop (4 * length trgt + 4) m src trgt (match ic_lazy c with Some n => n | None => 90 end) (zlen trgt) (mkE [] 0 4 0 0 StartNewMatch (Some s) tm) = Ok e -> e_ops e = []).
  { intros tm s e Etm Es Ee. assert (V : einv src trgt (zlen trgt) (mkE [] 0 4 0 0 StartNewMatch (Some s) tm)).
    { apply (einv_start src trgt (ic_naive c)); [exact Hn|exact (src_build_rel _ _ _ _ _ _ (Z.le_refl 0) Es)|]. destruct (ic_trgt c) as [tc|]; [|injection Etm as <-; exact I]. apply bind_ok in Etm as (t & Et & Etm). injection Etm as <-. exact (trgt_build_rel _ _ _ _ _ (Z.le_refl 0) Et). }
    refine (eloop_winv m sc src trgt _ (zlen trgt) Hb ltac:(lia) ltac:(lia) F NR (Z.le_refl _) _ _ e V _ Ee). split; [reflexivity|]. cbn [e_trgt e_src e_cur e_st]. split; [|split; [|split; [auto|discriminate]]].
    - destruct (ic_trgt c) as [tc|]; [|injection Etm as <-; exact I]. destruct HF as [HF|HF]; [discriminate HF|]. apply bind_ok in Etm as (t & Et & Etm). injection Etm as <-. destruct (build_dirty _ _ _ _ Et) as (A & B & C). rewrite poll_0. auto.
    - exact (src_build_table m sc src trgt s Hs Es). }
  destruct (ic_trgt c) as [tc|]; (destruct ((zlen src =? 0) && _); [injection H as <-; reflexivity|]; destruct (zlen trgt =? 0); [injection H as <-; reflexivity|];
    apply bind_ok in H as (tm & Etm & H); apply bind_ok in H as (sm & Esm & H); apply bind_ok in Esm as (s & Es & Esm); injection Esm as <-; cbv zeta in H; apply bind_ok in H as (e & Ee & H); apply bind_ok in H as (u & _ & H); rewrite Z.ltb_irrefl in H; injection H as <-;
    rewrite (G _ _ _ Etm Es Ee); reflexivity).
Qed.
(** C116. A target none of whose nine-byte words starts in the first window of the dictionary (and at a multiple of the step) gets the patch it would get without dictionary and without matching, whatever follows the first window.
    (No byte four times in a row, and the target matcher off or blind, as in C88.) *)
Theorem C116_only_the_first_window : forall m cd c sc dict trgt patch, Forall is_byte trgt -> zlen trgt < 2 ^ 63 -> zlen dict < 2 ^ 63 ->
  cf_src c = Some sc -> (cf_naive c = None \/ zlen trgt <= zlen dict) -> (cf_trgt c = None \/ start_differs trgt) -> no_run 4 trgt ->
  (forall p q, 0 <= p < win_size sc -> p mod step_of sc = 0 -> p + 9 <= zlen dict -> 0 <= q -> q + 9 <= zlen trgt -> sub dict p 9 <> sub trgt q 9) ->
  encode m cd c (Some dict) trgt = (patch, Ok tt) ->
  encode m cd (mkConfig None None (cf_comp c) (cf_format c) (cf_segment c) None (cf_lazy c)) None trgt = (patch, Ok tt).
Proof.
  intros m cd c sc dict trgt patch Hb Ht Hs Hsc Hn Hst NR F H. set (c0 := mkConfig None None (cf_comp c) (cf_format c) (cf_segment c) None (cf_lazy c)).
  rewrite <- (C87_no_source_matching m cd c0 (Some dict) trgt eq_refl eq_refl Hb Ht).
  unfold encode, encode_with in *. cbv zeta in *. change (encode_inner m (inner_of c0) dict trgt) with (@Ok (list cand) []).
  destruct (encode_inner m (inner_of c) dict trgt) as [cs|x| |] eqn:Ei; try (unfold wbind, wlift in H; cbn [fst snd] in H; discriminate H).
  rewrite (encode_inner_window m (inner_of c) sc dict trgt cs Hb Ht Hs) in H; [exact H| |exact Hsc|destruct Hst as [Hst|Hst]; [left; exact Hst|right; exact (start_far _ Hst)]|exact F|exact NR|exact Ei].
  cbn [inner_of ic_naive]. unfold naive_tests. destruct Hn as [->|Hn]; [destruct (zlen trgt >? zlen dict); reflexivity|]. replace (zlen trgt >? zlen dict) with false by lia. reflexivity.
Qed.

(** ** Not found, although there *)
(** C116. For every setting of the source matcher, a block that the dictionary contains verbatim, but only after its first window, is sent again as literals. *)
Theorem C116_later_block_resent_refuted : forall m m' cd c sc k block patch, comp_lossless cd (cf_comp c) block -> Forall is_byte block -> 2 <= zlen block ->
  cf_src c = Some sc -> win_size sc + 8 <= k -> k + zlen block < 2 ^ 63 -> (cf_trgt c = None \/ start_differs block) -> no_run 4 block ->
  encode m cd c (Some (rep 0 k ++ block)) block = (patch, Ok tt) ->
  exists secs, patch_read (next_section m' cd) patch secs [] /\ concat (map fst secs) = pieces (length block) block.
Proof.
  intros m m' cd c sc k block patch Hcd Hb Hl Hsc Hk Hz Hst NR H. destruct (win_size_half sc) as [W1 W2].
  assert (K : encode m cd (mkConfig None None (cf_comp c) (cf_format c) (cf_segment c) None (cf_lazy c)) None block = (patch, Ok tt)).
  { apply (C116_only_the_first_window m cd c sc (rep 0 k ++ block)); [exact Hb|lia|rewrite zlen_app, zlen_rep by lia; lia|exact Hsc|right; rewrite zlen_app, zlen_rep by lia; lia|exact Hst|exact NR| |exact H].
    intros p q Hp _ _ Hq Hq2 E. rewrite sub_app_l in E by (try rewrite zlen_rep by lia; lia). rewrite sub_rep in E by lia.
    apply (NR 0 q); [lia|lia|]. pose proof (f_equal (fun x => sub x 0 4) E) as E'. cbv beta in E'. rewrite sub_sub, sub_rep, Z.add_0_r in E' by lia. symmetry. exact E'. }
  destruct (C87_no_matching m m' cd (mkConfig None None (cf_comp c) (cf_format c) (cf_segment c) None (cf_lazy c)) None block patch Hcd Hb ltac:(lia) ltac:(cbn; lia) eq_refl eq_refl K) as (secs & R & E). exists secs. split; [exact R|]. rewrite E.
  destruct block as [|x [|y l]]; [change (zlen (@nil Z)) with 0 in Hl; lia|change (zlen [x]) with 1 in Hl; lia|reflexivity].
Qed.
(** And it can be encoded: for blocks of up to lazy_escape_len (90) + 4 bytes, always. *)
Theorem C116_later_block_encodes : forall m cd c sc k block, Forall is_byte block -> zlen block <= SpecApi.lazy_of c + 4 -> zlen block < 2 ^ 62 -> 
  cf_src c = Some sc -> legal_src m sc -> legal_comp (cf_comp c) -> (forall tc, cf_trgt c = Some tc -> legal_trgt tc) -> cf_naive c = None -> 0 <= k -> (k + zlen block) * zlen block < 2 ^ 63 -> k + zlen block < 2 ^ 63 ->
  exists patch, encode m cd c (Some (rep 0 k ++ block)) block = (patch, Ok tt).
Proof.
  intros m cd c sc k block Hb Hl Hz Hsc Lg Lc Lt Hn Hk Hm Hm2. apply C33_encode_total_short; auto; cbn [source_of].
  - change (zlen (rep 0 k ++ block) < 2 ^ 63). rewrite zlen_app, zlen_rep by lia. lia.
  - right. left. exact Hn.
  - intros sc' E. rewrite Hsc in E. injection E as <-. split; [exact Lg|]. intros _. change (zlen (rep 0 k ++ block) * zlen block < 2 ^ 64). replace (zlen (rep 0 k ++ block)) with (k + zlen block) by (rewrite zlen_app, zlen_rep by lia; lia). change (2 ^ 64) with (2 * 2 ^ 63). generalize dependent ((k + zlen block) * zlen block). intros z Hz1. lia.
Qed.

(** ** Examples *)
(** The default settings: windows of 64 MiB; a block after 64 MiB and 8 bytes of zeros. *)
Definition block116 : list Z := [84; 104; 101; 32; 119; 105; 110; 100; 111; 119; 32; 115; 116; 97; 121; 115; 32; 97; 116; 32; 116; 104; 101; 32; 115; 116; 97; 114; 116; 33].
Definition cfg116 : config := mkConfig (Some (mkSC 2 None)) (Some (mkTC 70 33 None)) None Interleaved 16777215 None None.
Lemma block116_ok : Forall is_byte block116 /\ start_differs block116 /\ no_run 4 block116.
Proof.
  split; [repeat (constructor; [unfold is_byte; lia|]); constructor|]. split; [apply odd_start; [reflexivity|vm_compute; discriminate]|]. apply no_run4b_ok. vm_compute. reflexivity.
Qed.
Example C116_later_block_resent_refuted_example : win_size (mkSC 2 None) = 2 ^ 26 /\ forall m m' cd, exists patch secs, encode m cd cfg116 (Some (rep 0 (2 ^ 26 + 8) ++ block116)) block116 = (patch, Ok tt) /\ 
  patch_read (next_section m' cd) patch secs [] /\ concat (map fst secs) = [Add block116].
Proof.
  split; [reflexivity|]. intros m m' cd. destruct block116_ok as (B1 & B2 & B3). assert (L : zlen block116 = 30) by reflexivity.
  destruct (C116_later_block_encodes m cd cfg116 (mkSC 2 None) (2 ^ 26 + 8) block116 B1 ltac:(rewrite L; vm_compute; discriminate) ltac:(rewrite L; lia) eq_refl I I ltac:(intros tc E; injection E as <-; split; [cbn; lia|exact I]) eq_refl ltac:(lia) ltac:(rewrite L; lia) ltac:(rewrite L; lia)) as (patch & E).
  destruct (C116_later_block_resent_refuted m m' cd cfg116 (mkSC 2 None) (2 ^ 26 + 8) block116 patch I B1 ltac:(rewrite L; lia) eq_refl ltac:(change (win_size (mkSC 2 None)) with (2 ^ 26); lia) ltac:(rewrite L; lia) (or_intror B2) B3 E) as (secs & R & Es).
  exists patch, secs. split; [exact E|]. split; [exact R|]. rewrite Es. reflexivity.
Qed.
(** The same block within the first window: one copy, a patch of five bytes. *)
Example C116_found_when_within : forall m, encode m TTrunc.no_codecs cfg116 (Some (rep 0 8 ++ block116 ++ rep 0 30)) block116 = ([0; 1; 30; 30; 16], Ok tt).
Proof. intros [|]; vm_compute; reflexivity. Qed.
Example C116_only_the_first_window_example : forall p q, 0 <= p < win_size (mkSC 2 None) -> 0 <= q -> q + 9 <= zlen block116 -> sub (rep 0 (2 ^ 26 + 8) ++ block116) p 9 <> sub block116 q 9.
Proof.
  intros p q Hp Hq Hl E. change (win_size (mkSC 2 None)) with (2 ^ 26) in Hp. destruct block116_ok as (_ & _ & NR). rewrite sub_app_l in E by (try rewrite zlen_rep; lia). rewrite sub_rep in E by lia.
  apply (NR 0 q); [lia|lia|]. pose proof (f_equal (fun x => sub x 0 4) E) as E'. cbv beta in E'. rewrite sub_sub, sub_rep, Z.add_0_r in E' by lia. symmetry. exact E'.
Qed.
Example C116_later_block_encodes_example : Forall is_byte block116 /\ zlen block116 <= SpecApi.lazy_of cfg116 + 4 /\ legal_src Debug (mkSC 2 None) /\ legal_trgt (mkTC 70 33 None) /\ (2 ^ 26 + 8 + zlen block116) * zlen block116 < 2 ^ 63.
Proof. split; [exact (proj1 block116_ok)|]. split; [vm_compute; discriminate|]. split; [exact I|]. split; [split; [cbn; lia|exact I]|vm_compute; reflexivity]. Qed.
(** A search in a small target, and one in a target without long matches: it finds the word at 0. *)
Example C116_small_target_example : forall m, exists e s, about_to_search m (mkSC 1 None) None 90 es et 0 e s /\ zlen et <= win_size (mkSC 1 None) / 2 /\ find_best_src_match m s es et = Ok (Some (0, 0, 9)).
Proof. intro m. destruct (C106_every_search_example m) as (e & s & A & _ & _ & _ & _ & _ & _ & F). exists e, s. split; [exact A|]. split; [vm_compute; discriminate|exact F]. Qed.
Example C116_where_found_example : forall m, exists e s, about_to_search m (mkSC 1 None) None 90 es et 0 e s /\ find_best_src_match m s es et = Ok (Some (0, 0, 9)) /\ 0 < win_size (mkSC 1 None).
Proof. intro m. destruct (C116_small_target_example m) as (e & s & A & _ & F). exists e, s. split; [exact A|]. split; [exact F|vm_compute; reflexivity]. Qed.
Lemma short_nothing n x y : zlen x < n -> no_run n x /\ nothing_common n y x /\ nothing_repeats n x.
Proof. intro H. pose proof (zlen_nonneg x) as Hx. split; [intros b p Hp Hl; lia|]. split; [intros p q Hp Hl Hq Hl2; lia|intros p q Hp Hl Hq; lia]. Qed.
Example C116_without_long_matches_example : forall m, exists e s, about_to_search m (mkSC 1 None) None 90 es et 0 e s /\ no_run 90 et /\ nothing_common 90 es et /\ nothing_repeats 90 et /\
  find_best_src_match m s es et = Ok (Some (0, 0, 9)) /\ In 18 (indexed_by (mkSC 1 None) es et 0 [0]).
Proof.
  intro m. destruct (C116_small_target_example m) as (e & s & A & _ & F). exists e, s. split; [exact A|]. destruct (short_nothing 90 et es ltac:(vm_compute; reflexivity)) as (X & Y & Z0). split; [exact X|]. split; [exact Y|]. split; [exact Z0|]. split; [exact F|].
  rewrite first_window by (vm_compute; reflexivity). unfold indexed_in. apply in_multiples. vm_compute. split; [split; [discriminate|reflexivity]|reflexivity].
Qed.

Print Assumptions C116_where_found.
Print Assumptions C116_small_target.
Print Assumptions C116_without_long_matches.
Print Assumptions C116_only_the_first_window.
Print Assumptions C116_later_block_resent_refuted.
Print Assumptions C116_later_block_encodes.
