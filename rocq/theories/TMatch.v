(** Properties C38 (rolling checksums), C39 (hash table), C44 (compression levels). *)
From Verif Require Import Base Spec SpecEnc MCommon MHasher MHashmap MTrgtMatcher MSrcMatcher MEncInner MEncode MLevels
  PBase PHasher PHashmap.
Ltac Zify.zify_post_hook ::= idtac.
Arguments Z.add : simpl never.
Arguments Z.sub : simpl never.
Arguments Z.mul : simpl never.
Arguments Z.pow : simpl never.

(** C38. Rolling one byte forward or backward gives the checksum computed from scratch at the new position. *)
Theorem C38_rolling_equals_fresh : forall (l : list Z) pos old new,
  (0 <= pos -> pos + 10 <= zlen l -> idx l pos = Ok old -> idx l (pos + 9) = Ok new ->
     update_large_checksum_fwd (calculate_large_checksum (sub l pos 9)) old new = calculate_large_checksum (sub l (pos + 1) 9) /\
     update_large_checksum_bwd (calculate_large_checksum (sub l (pos + 1) 9)) new old = calculate_large_checksum (sub l pos 9)) /\
  (0 <= pos -> pos + 5 <= zlen l -> idx l pos = Ok old -> idx l (pos + 4) = Ok new ->
     update_small_checksum_fwd (calculate_small_checksum (sub l pos 4)) old new = calculate_small_checksum (sub l (pos + 1) 4)).
Proof.
  intros l pos old new. split; intros Hp Hl Ho Hn.
  - assert (E1 : exists w, zlen w = 8 /\ sub l pos 9 = old :: w /\ sub l (pos + 1) 9 = w ++ [new]).
    { exists (sub l (pos + 1) 8). split; [apply zlen_sub; lia|]. split.
      - rewrite (sub_split l pos 9 1) by lia. rewrite (idx_sub1 l pos old Ho). reflexivity.
      - rewrite (sub_split l (pos + 1) 9 8) by lia. replace (pos + 1 + 8) with (pos + 9) by lia. rewrite <- (idx_sub1 l (pos + 9) new Hn). reflexivity. }
    destruct E1 as (w & Hw & -> & ->).
    do 8 (destruct w as [|? w]; [exfalso; rewrite ?zlen_cons, (@zlen_nil Z) in Hw; lia|]).
    destruct w as [|? w]; [|exfalso; rewrite ?zlen_cons in Hw; pose proof (zlen_nonneg w); lia].
    split; [apply large_fwd9|apply large_bwd9].
  - assert (E1 : exists w, zlen w = 3 /\ sub l pos 4 = old :: w /\ sub l (pos + 1) 4 = w ++ [new]).
    { exists (sub l (pos + 1) 3). split; [apply zlen_sub; lia|]. split.
      - rewrite (sub_split l pos 4 1) by lia. rewrite (idx_sub1 l pos old Ho). reflexivity.
      - rewrite (sub_split l (pos + 1) 4 3) by lia. replace (pos + 1 + 3) with (pos + 4) by lia. rewrite <- (idx_sub1 l (pos + 4) new Hn). reflexivity. }
    destruct E1 as (w & Hw & -> & ->).
    do 3 (destruct w as [|? w]; [exfalso; rewrite ?zlen_cons, (@zlen_nil Z) in Hw; lia|]).
    destruct w as [|? w]; [|exfalso; rewrite ?zlen_cons in Hw; pose proof (zlen_nonneg w); lia].
    apply small_fwd4.
Qed.
(** Any number of steps, as the encoder rolls to a new position. *)
Theorem C38_rolling_many_steps : forall n (l : list Z) pos,
  (0 <= pos -> pos + Z.of_nat n + 9 <= zlen l ->
     roll_large n l (calculate_large_checksum (sub l pos 9)) pos = Ok (calculate_large_checksum (sub l (pos + Z.of_nat n) 9))) /\
  (0 <= pos -> pos + Z.of_nat n + 4 <= zlen l ->
     roll_small n l (calculate_small_checksum (sub l pos 4)) pos = Ok (calculate_small_checksum (sub l (pos + Z.of_nat n) 4))).
Proof.
  induction n as [|n IH]; intros l pos; (split; intros Hp Hl; [cbn [roll_large]|cbn [roll_small]]).
  - replace (pos + Z.of_nat 0) with pos by lia. reflexivity.
  - replace (pos + Z.of_nat 0) with pos by lia. reflexivity.
  - destruct (idx_ok l pos ltac:(lia)) as (old & Eo & _). destruct (idx_ok l (pos + 9) ltac:(lia)) as (new & En & _).
    rewrite Eo, En. cbn [bind]. destruct (proj1 (C38_rolling_equals_fresh l pos old new) Hp ltac:(lia) Eo En) as [-> _].
    rewrite (proj1 (IH l (pos + 1))) by lia. do 3 f_equal. lia.
  - destruct (idx_ok l pos ltac:(lia)) as (old & Eo & _). destruct (idx_ok l (pos + 4) ltac:(lia)) as (new & En & _).
    rewrite Eo, En. cbn [bind]. rewrite (proj2 (C38_rolling_equals_fresh l pos old new) Hp ltac:(lia) Eo En).
    rewrite (proj2 (IH l (pos + 1))) by lia. do 3 f_equal. lia.
Qed.
Example C38_example : calculate_large_checksum [1; 2; 3; 4; 5; 6; 7; 8; 9] <> calculate_large_checksum [2; 3; 4; 5; 6; 7; 8; 9; 10] /\
  roll_large 3 [1; 2; 3; 4; 5; 6; 7; 8; 9; 10; 11; 12] (calculate_large_checksum [1; 2; 3; 4; 5; 6; 7; 8; 9]) 0 = Ok (calculate_large_checksum [4; 5; 6; 7; 8; 9; 10; 11; 12]).
Proof. split; [vm_compute; discriminate|vm_compute; reflexivity]. Qed.

(** C39. A history of insertions, oldest first. *)
Fixpoint inserts (t : table) (hist : list (Z * Z)) : res table :=
  match hist with
  | [] => Ok t
  | (h, p) :: r => do (t, _) <- table_insert t h p; inserts t r
  end.
Theorem C39_table_sound : forall m cap (is32 : bool) hist, 0 <= cap < 2 ^ (if is32 then 33 else 63) ->
  Forall (fun e => 0 <= fst e < 2 ^ (if is32 then 32 else 64) /\ 0 <= snd e) hist ->
  exists t0 t, table_new m cap is32 = Ok t0 /\ inserts t0 hist = Ok t /\
  forall h, 0 <= h < 2 ^ (if is32 then 32 else 64) ->
  exists r, table_get t h = Ok r /\
    (* a found position is the latest one inserted under this hash *)
    (forall p, r = Some p -> exists before after, hist = before ++ (h, p) :: after /\ ~ In h (map fst after)) /\
    (* a hash is only lost to a later insertion of another hash *)
    (r = None -> forall before p after, hist = before ++ (h, p) :: after -> exists h', In h' (map fst after) /\ h' <> h).
Proof.
  intros m cap is32 hist Hc Hh. destruct (table_new_ok m cap is32 Hc) as (t0 & E0 & Hg0 & Hb0 & _).
  exists t0. change (2 ^ (if is32 then 32 else 64)) with (2 ^ table_width is32) in *.
  assert (G : forall hist done t, table_good (table_width is32) t -> holds t done -> Forall (fun e => 0 <= fst e < 2 ^ table_width is32 /\ 0 <= snd e) hist ->
    exists t', inserts t hist = Ok t' /\ table_good (table_width is32) t' /\ holds t' (rev hist ++ done)).
  { clear. induction hist as [|[h p] hist IH]; intros dn t Hg Hho Hf.
    - exists t. cbn. auto.
    - apply Forall_cons_iff in Hf as [[Hf1 Hf2] Hf]. cbn [fst snd] in *.
      destruct (table_insert_ok _ t dn h p Hg Hho Hf1) as (t1 & r & E & Hg1 & Hho1 & _).
      destruct (IH ((h, p) :: dn) t1 Hg1 Hho1 Hf) as (t' & E' & Hg' & Hho'). exists t'. cbn [inserts]. rewrite E. cbn [bind].
      split; [exact E'|]. split; [exact Hg'|]. cbn [rev]. rewrite <- app_assoc. exact Hho'. }
  destruct (G hist [] t0 Hg0) as (t & Et & Hgt & Hho); [intro i; rewrite Hb0; reflexivity|exact Hh|].
  exists t. split; [exact E0|]. split; [exact Et|]. intros h Hr. rewrite app_nil_r in Hho.
  rewrite (table_get_ok _ t (rev hist) h Hgt Hho); [|intros x Hx; apply in_rev in Hx; rewrite Forall_forall in Hh; apply Hh; exact Hx|exact Hr].
  eexists. split; [reflexivity|].
  assert (Split : forall l (f : Z * Z -> bool) e, find f l = Some e -> exists a b, l = a ++ e :: b /\ f e = true /\ forall x, In x a -> f x = false).
  { clear. induction l as [|x l IH]; intros f e H; [discriminate|]. cbn [find] in H. destruct (f x) eqn:E.
    - injection H as <-. exists [], l. split; [reflexivity|]. split; [exact E|]. intros y [].
    - destruct (IH f e H) as (a & b & -> & H1 & H2). exists (x :: a), b. split; [reflexivity|]. split; [exact H1|]. intros y [<-|Hy]; auto. }
  split.
  - intros p Hp. destruct (find (at_bucket t (bucket_idx t h)) (rev hist)) as [[h' p']|] eqn:Ef; [|discriminate].
    destruct (h' =? h) eqn:Eh; [|discriminate]. injection Hp as ->. assert (h' = h) by lia. subst h'.
    apply Split in Ef as (a & b & El & _ & Hn). exists (rev b), (rev a).
    split. { rewrite <- (rev_involutive hist), El, rev_app_distr. cbn [rev]. rewrite <- app_assoc. reflexivity. }
    intro Hin. apply in_map_iff in Hin as ([h' p'] & E & Hin). cbn in E. subst h'. apply in_rev in Hin. apply Hn in Hin.
    unfold at_bucket in Hin. cbn [fst] in Hin. rewrite Z.eqb_refl in Hin. discriminate.
  - intros Hnone before p after Eh.
    destruct (find (at_bucket t (bucket_idx t h)) (rev hist)) as [[h' p']|] eqn:Ef.
    + destruct (h' =? h) eqn:Ehh; [discriminate|]. exists h'. split; [|lia].
      apply Split in Ef as (a & b & El & Ht & Hn).
      assert (Ea : rev hist = rev after ++ (h, p) :: rev before) by (rewrite Eh, rev_app_distr; cbn [rev]; rewrite <- app_assoc; reflexivity).
      rewrite El in Ea. assert (In (h', p') (rev after)).
      { clear - Ea Hn Ehh. revert Ea Hn. generalize (rev after) as x. induction a as [|y a IH]; intros [|z x] Ea Hn; cbn in Ea.
        - injection Ea as -> _ _. lia.
        - injection Ea as <- _. left. reflexivity.
        - injection Ea as -> _. exfalso. specialize (Hn (h, p) (or_introl eq_refl)). unfold at_bucket in Hn. cbn [fst] in Hn. rewrite Z.eqb_refl in Hn. discriminate.
        - injection Ea as <- Ea. right. apply (IH x Ea). intros w Hw. apply Hn. right. exact Hw. }
      apply in_map_iff. exists (h', p'). split; [reflexivity|]. apply in_rev. exact H.
    + exfalso. apply find_none with (x := (h, p)) in Ef.
      * unfold at_bucket in Ef. cbn [fst] in Ef. rewrite Z.eqb_refl in Ef. discriminate.
      * apply -> in_rev. rewrite Eh. apply in_app_iff. right. left. reflexivity.
Qed.
(** In particular the most recent insertion is always found. *)
Theorem C39_last_insertion_found : forall m cap (is32 : bool) hist h p, 0 <= cap < 2 ^ (if is32 then 33 else 63) ->
  Forall (fun e => 0 <= fst e < 2 ^ (if is32 then 32 else 64) /\ 0 <= snd e) (hist ++ [(h, p)]) ->
  exists t0 t, table_new m cap is32 = Ok t0 /\ inserts t0 (hist ++ [(h, p)]) = Ok t /\ table_get t h = Ok (Some p).
Proof.
  intros m cap is32 hist h p Hc Hh. destruct (C39_table_sound m cap is32 _ Hc Hh) as (t0 & t & E0 & Et & G).
  exists t0, t. split; [exact E0|]. split; [exact Et|].
  assert (Hr : 0 <= h < 2 ^ (if is32 then 32 else 64)).
  { apply Forall_app in Hh as [_ Hh]. apply Forall_cons_iff in Hh as [[Hh _] _]. exact Hh. }
  destruct (G h Hr) as (r & Er & H1 & H2). rewrite Er. f_equal. destruct r as [q|].
  - f_equal. destruct (H1 q eq_refl) as (b & a & El & Hn). destruct a as [|x a _] using rev_ind.
    + apply app_inj_tail in El as [_ E]. congruence.
    + exfalso. apply Hn. rewrite app_comm_cons, app_assoc in El. apply app_inj_tail in El as [_ <-].
      rewrite map_app. apply in_app_iff. right. left. reflexivity.
  - exfalso. destruct (H2 eq_refl hist p [] eq_refl) as (h' & [] & _).
Qed.
Example C39_example : forall m, exists t0 t, table_new m 100 true = Ok t0 /\ inserts t0 [(7, 1); (8, 2); (7, 3); (4294967295, 9)] = Ok t /\
  table_get t 7 = Ok (Some 3) /\ table_get t 8 = Ok (Some 2) /\ table_get t 9 = Ok None.
Proof. intros []; (eexists; eexists; split; [vm_compute; reflexivity|]; split; [vm_compute; reflexivity|]; vm_compute; auto). Qed.

(** C44. For every input range of at least two values and every output range (small enough for the products to fit), every
    level is mapped into the output range, both ends are reached, and the mapping is monotone, decreasing when the output
    range is inverted; no arithmetic fails in any build. *)
Theorem C44_levels_monotone_in_range : forall m istart iend ostart oend,
  0 <= istart -> istart + 2 <= iend -> 0 <= ostart -> 0 <= oend ->
  iend < 2 ^ 64 -> ostart + oend < 2 ^ 63 -> Z.abs (oend - ostart) * (iend - istart) < 2 ^ 64 ->
  exists r, ranger_new m istart iend ostart oend = Ok r /\
  exists f, (forall v, 0 <= v -> ranger_map m r v = Ok (f v)) /\
    (forall v, Z.min ostart oend <= f v <= Z.max ostart oend) /\
    (forall v, v <= istart -> f v = ostart) /\ (forall v, iend - 1 <= v -> f v = oend) /\
    (forall v w, v <= w -> if ostart <=? oend then f v <= f w else f w <= f v).
Proof.
  intros m istart iend ostart oend Hi Hie Ho Hoe Hie64 Ho63 Hprod.
  unfold ranger_new. rewrite usub_ok by lia. cbn [bind]. rewrite usub_ok by lia. cbn [bind]. eexists. split; [reflexivity|].
  set (span := iend - istart - 1). set (os := Z.abs (oend - ostart)).
  set (q := fun v => os * (Z.min (Z.max v istart) (iend - 1) - istart) / span).
  assert (Hq : forall v, 0 <= q v <= os).
  { intro v. unfold q. split; [apply Z.div_pos; [apply Z.mul_nonneg_nonneg|]; lia|].
    apply Z.div_le_upper_bound; [lia|]. rewrite (Z.mul_comm span). apply Z.mul_le_mono_nonneg_l; lia. }
  assert (Hqm : forall v w, v <= w -> q v <= q w).
  { intros v w Hvw. unfold q. apply Z.div_le_mono; [lia|]. apply Z.mul_le_mono_nonneg_l; lia. }
  assert (Hq0 : forall v, v <= istart -> q v = 0).
  { intros v Hv. unfold q. replace (Z.min (Z.max v istart) (iend - 1) - istart) with 0 by lia. rewrite Z.mul_0_r. apply Z.div_0_l. lia. }
  assert (Hq1 : forall v, iend - 1 <= v -> q v = os).
  { intros v Hv. unfold q. replace (Z.min (Z.max v istart) (iend - 1) - istart) with span by lia. apply Z.div_mul. lia. }
  exists (fun v => if ostart <=? oend then ostart + q v else ostart - q v).
  split.
  - intros v Hv. unfold ranger_map. cbn [r_istart r_iend r_ostart r_oend r_ispan r_ospan r_inv]. fold span os.
    rewrite usub_ok by lia. cbn [bind]. replace (istart <=? iend - 1) with true by lia. cbn [assert_ bind].
    rewrite usub_ok by lia. cbn [bind].
    assert (0 <= os * (Z.min (Z.max v istart) (iend - 1) - istart) < 2 ^ 64).
    { split; [apply Z.mul_nonneg_nonneg; lia|]. eapply Z.le_lt_trans; [|exact Hprod]. apply Z.mul_le_mono_nonneg_l; lia. }
    rewrite arith_ok by (apply to_u64_id; assumption). cbn [bind]. replace (span =? 0) with false by lia. cbn [negb assert_ bind].
    fold (q v). specialize (Hq v). rewrite arith_ok by (apply to_u64_id; lia). cbn [bind].
    destruct (ostart >? oend) eqn:E.
    + replace (ostart <=? oend) with false by lia. rewrite arith_ok by (apply to_u64_id; lia). cbn [bind]. rewrite usub_ok by lia. cbn [bind].
      rewrite arith_ok by (apply to_u64_id; lia). f_equal. lia.
    + replace (ostart <=? oend) with true by lia. f_equal. lia.
  - split; [intro v; specialize (Hq v); destruct (ostart <=? oend) eqn:E; lia|]. split; [intros v Hv; rewrite (Hq0 v Hv); destruct (ostart <=? oend); lia|].
    split; [intros v Hv; rewrite (Hq1 v Hv); destruct (ostart <=? oend) eqn:E; lia|]. intros v w Hvw. specialize (Hqm v w Hvw). destruct (ostart <=? oend); lia.
Qed.
(** The levels of the public API: 0..9 are accepted and give steps 26 down to 2, early exits 6 up to 70 and chain checks
    1 up to 33; any other level panics. *)
Theorem C44_public_levels : forall m level mt sc, 0 <= level ->
  (level <= 9 -> exists step early chain, 2 <= step <= 26 /\ 6 <= early <= 70 /\ 1 <= chain <= 33 /\
     config_level m level mt sc = Ok (mkConfig (Some (mkSC step None)) (if mt then Some (mkTC early chain None) else None) sc
       (match sc with Some _ => Segregated | None => Interleaved end) max_win_size None None)) /\
  (9 < level -> config_level m level mt sc = Panic).
Proof.
  intros m level mt sc H0. split.
  - intro H9.
    assert (C : level = 0 \/ level = 1 \/ level = 2 \/ level = 3 \/ level = 4 \/ level = 5 \/ level = 6 \/ level = 7 \/ level = 8 \/ level = 9) by lia.
    assert (F : forall l, (exists step early chain, src_level m l = Ok (mkSC step None) /\ trgt_level m l = Ok (mkTC early chain None) /\ 2 <= step <= 26 /\ 6 <= early <= 70 /\ 1 <= chain <= 33) ->
      exists step early chain, 2 <= step <= 26 /\ 6 <= early <= 70 /\ 1 <= chain <= 33 /\
     config_level m l mt sc = Ok (mkConfig (Some (mkSC step None)) (if mt then Some (mkTC early chain None) else None) sc
       (match sc with Some _ => Segregated | None => Interleaved end) max_win_size None None)).
    { intros l (step & early & chain & E1 & E2 & R1 & R2 & R3). exists step, early, chain. repeat (split; [assumption|]).
      unfold config_level. rewrite E1. destruct mt; [rewrite E2|]; reflexivity. }
    apply F. clear F.
    repeat (destruct C as [->|C]; [destruct m; (eexists; eexists; eexists; split; [vm_compute; reflexivity|]; split; [vm_compute; reflexivity|]; lia)|]).
    subst. destruct m; (eexists; eexists; eexists; split; [vm_compute; reflexivity|]; split; [vm_compute; reflexivity|]; lia).
  - intro H9. unfold config_level, trgt_level, src_level. replace (level <=? 9) with false by lia. destruct mt; reflexivity.
Qed.
Example C44_example : forall m, config_default m = Ok (mkConfig (Some (mkSC 18 None)) None None Interleaved 16777215 None None) /\
  (exists r, ranger_new m 0 10 26 2 = Ok r /\ map (ranger_map m r) [0; 1; 5; 9; 100] = [Ok 26; Ok 24; Ok 13; Ok 2; Ok 2]).
Proof. intros []; (split; [vm_compute; reflexivity|]; eexists; split; [reflexivity|vm_compute; reflexivity]). Qed.

Print Assumptions C38_rolling_equals_fresh.
Print Assumptions C38_rolling_many_steps.
Print Assumptions C39_table_sound.
Print Assumptions C39_last_insertion_found.
Print Assumptions C44_levels_monotone_in_range.
Print Assumptions C44_public_levels.
