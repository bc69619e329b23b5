(** How many entries of the index one search looks at. Property C118. *)
From Verif Require Import Base Spec SpecEnc MCommon MHasher MHashmap MTrgtMatcher MSrcMatcher MEncInner MEncode MLevels SpecApi PBase PHasher PHashmap PEncInner PTotal TMiss TSearch.
From Coq Require Import Sorted.
Ltac Zify.zify_post_hook ::= idtac.
Arguments Z.add : simpl never.
Arguments Z.sub : simpl never.
Arguments Z.mul : simpl never.
Arguments Z.pow : simpl never.
Arguments Z.div : simpl never.
Arguments Z.modulo : simpl never.

(** ** Specification *)
(** A search may stop when the entries it has seen hold [n] repeats, or one repeat of at least [early] bytes. *)
Definition enough (early n : Z) (trgt : list Z) (cur : Z) (seen : list Z) : Prop :=
  n <= zlen (repeats trgt cur seen) \/ exists p, In p (repeats trgt cur seen) /\ early <= match_at trgt cur p.
(** [find_best_trgt_match] given only [n] rounds of its loop (one round looks at one entry, or finds that there is nothing more to do); [Diverge] when they are used up. *)
Definition search_rounds (n : nat) (m : mode) (t : trgt_matcher) (trgt : list Z) (min_match : Z) : res (option (Z * Z)) :=
  do tp <- table_get (tm_table t) (tm_hash t);
  match tp with
  | None => Ok None
  | Some p => find_trgt_loop n m t trgt (Some p) p (if min_match >? 4 then Z.max (tm_chain_check t / 4) 1 else tm_chain_check t) None 0
  end.

(** ** The count *)
Fixpoint looked (early : Z) (trgt : list Z) (cur chain bl : Z) (l : list Z) : Z :=
  match l with
  | [] => 0
  | p :: r =>
      if chain =? 0 then 0 else
      if is_repeat trgt cur p then
        let n := match_at trgt cur p in
        if n >? bl then if n >=? early then 1 else 1 + looked early trgt cur (chain - 1) n r else 1 + looked early trgt cur (chain - 1) bl r
      else 1 + looked early trgt cur chain bl r
  end.
Lemma looked_range early trgt cur : forall l chain bl, 0 <= looked early trgt cur chain bl l <= zlen l.
Proof.
  induction l as [|p r IH]; intros chain bl; cbn [looked]; [rewrite (@zlen_nil Z); lia|]. rewrite zlen_cons. pose proof (zlen_nonneg r).
  destruct (chain =? 0); [lia|]. destruct (is_repeat trgt cur p); cbv zeta.
  - destruct (_ >? bl); [destruct (_ >=? early); [lia|]; specialize (IH (chain - 1) (match_at trgt cur p)); lia|specialize (IH (chain - 1) bl); lia].
  - specialize (IH chain bl). lia.
Qed.
(** With [fuel] rounds. *)
Lemma loop_rounds m t B H trgt : index_ok t B H -> B <= tm_pos t -> tm_pos t + 4 <= zlen trgt -> zlen trgt < 2 ^ 64 ->
  forall fuel pre hk key post chain best bl, H = pre ++ (hk, key) :: post -> bucket_idx (tm_table t) hk = bucket_idx (tm_table t) (tm_hash t) -> 0 <= chain ->
  let l := map snd (filter (linked (ch_cap (tm_chain t)) (tm_pos t) (tm_hash t)) post) in
  (Z.of_nat fuel < looked (tm_early t) trgt (tm_pos t) chain bl l -> find_trgt_loop fuel m t trgt None key chain best bl = Diverge) /\
  (looked (tm_early t) trgt (tm_pos t) chain bl l < Z.of_nat fuel ->
     find_trgt_loop fuel m t trgt None key chain best bl = Ok (scan (tm_early t) best bl (with_len trgt (tm_pos t) (take chain (repeats trgt (tm_pos t) l))))).
Proof.
  intros IX HB Hl Hz. induction fuel as [|fuel IH]; intros pre hk key post chain best bl EH Hbk Hch.
  { cbv zeta. split; intro Hf; [reflexivity|]. exfalso. match type of Hf with looked ?a ?b ?c ?d ?e ?l < _ => pose proof (looked_range a b c l d e) end. lia. }
  cbv zeta. assert (Hk : 0 <= key < B) by (apply (ix_pos _ _ _ IX (hk, key)); rewrite EH; apply in_elt).
  destruct (Z.eq_dec chain 0) as [-> |Hne].
  { rewrite take_zero. split; [|intros _; reflexivity]. intro Hf. exfalso. destruct (map snd _); cbn [looked] in Hf; [|change (0 =? 0) with true in Hf; cbv iota in Hf]; lia. }
  destruct (chain_exact m t B H (tm_pos t) (tm_hash t) IX ltac:(lia) (S (Z.to_nat key)) pre hk key post EH Hbk ltac:(lia)) as (r & Er & Hr). fold (chain_next m (tm_chain t) key (tm_pos t) (tm_hash t)) in Er.
  change (fun e => (fst e =? tm_hash t) && (tm_pos t - snd e <? ch_cap (tm_chain t))) with (linked (ch_cap (tm_chain t)) (tm_pos t) (tm_hash t)) in Hr.
  set (F := linked (ch_cap (tm_chain t)) (tm_pos t) (tm_hash t)) in *. pose proof (find_split F post) as FS. destruct (find F post) as [[hp p]|].
  - destruct FS as (a & b & Ep & Fe & Fa). subst r. cbn [snd] in Er.
    assert (Hhp : hp = tm_hash t) by (unfold F, linked in Fe; cbn [fst snd] in Fe; lia).
    assert (EH' : H = (pre ++ (hk, key) :: a) ++ (hp, p) :: b) by (rewrite EH, Ep, <- app_assoc; reflexivity).
    assert (Hp : 0 <= p) by (apply (ix_pos _ _ _ IX (hp, p)); rewrite EH'; apply in_elt).
    rewrite (loop_step m t trgt fuel None key chain best bl p ltac:(lia) ltac:(lia) Hl Hz Hne Er).
    assert (Efl : filter F post = (hp, p) :: filter F b) by (rewrite Ep, filter_app, (filter_none F a Fa); cbn [app filter]; rewrite Fe; reflexivity).
    rewrite Efl. cbn [map snd]. unfold repeats. cbn [filter looked]. fold (is_repeat trgt (tm_pos t) p). fold (repeats trgt (tm_pos t) (map snd (filter F b))).
    replace (chain =? 0) with false by lia.
    assert (Hb2 : bucket_idx (tm_table t) hp = bucket_idx (tm_table t) (tm_hash t)) by (rewrite Hhp; reflexivity).
    destruct (is_repeat trgt (tm_pos t) p).
    + rewrite take_cons_pos by lia. cbn [with_len map scan]. fold (with_len trgt (tm_pos t) (take (chain - 1) (repeats trgt (tm_pos t) (map snd (filter F b))))). cbv zeta.
      destruct (match_at trgt (tm_pos t) p >? bl); [destruct (match_at trgt (tm_pos t) p >=? tm_early t); [split; [lia|reflexivity]|]|].
      * destruct (IH _ _ _ _ (chain - 1) (Some (p, match_at trgt (tm_pos t) p)) (match_at trgt (tm_pos t) p) EH' Hb2 ltac:(lia)) as [I1 I2]. split; intro Hf; [apply I1|apply I2]; lia.
      * destruct (IH _ _ _ _ (chain - 1) best bl EH' Hb2 ltac:(lia)) as [I1 I2]. split; intro Hf; [apply I1|apply I2]; lia.
    + destruct (IH _ _ _ _ chain best bl EH' Hb2 ltac:(lia)) as [I1 I2]. split; intro Hf; [apply I1|apply I2]; lia.
  - subst r. cbn [find_trgt_loop]. replace (chain =? 0) with false by lia. rewrite Er. cbn [bind]. rewrite (filter_none F post FS). cbn [map repeats filter looked]. rewrite take_nil'. split; [lia|reflexivity].
Qed.

(** [looked] is the length of the shortest beginning that is enough. *)
Lemma repeats_app trgt cur a b : repeats trgt cur (a ++ b) = repeats trgt cur a ++ repeats trgt cur b.
Proof. apply filter_app. Qed.
Lemma repeats_cons trgt cur p l : repeats trgt cur (p :: l) = if is_repeat trgt cur p then p :: repeats trgt cur l else repeats trgt cur l.
Proof. reflexivity. Qed.
Lemma looked_spec early trgt cur : 0 <= cur -> cur + 4 <= zlen trgt -> forall l chain bl, Forall (fun p => 0 <= p) l -> 0 <= chain -> bl < early \/ bl < 4 ->
  let k := looked early trgt cur chain bl l in
  (k = zlen l \/ enough early chain trgt cur (take k l)) /\ (forall j, 0 <= j < k -> ~ enough early chain trgt cur (take j l)).
Proof.
  intros Hc0 Hl. induction l as [|p r IH]; intros chain bl HF Hch Hbl; cbv zeta; cbn [looked].
  { rewrite (@zlen_nil Z). split; [left; reflexivity|lia]. }
  apply Forall_cons_iff in HF as [Hp HF]. destruct (chain =? 0) eqn:E0.
  { split; [right; left; rewrite take_zero; cbn [repeats filter]; rewrite (@zlen_nil Z); lia|lia]. }
  assert (Z0 : forall l, ~ enough early chain trgt cur (take 0 l)).
  { intros l [He|(q & [] & _)]. rewrite take_zero in He. cbn [repeats filter] in He. rewrite (@zlen_nil Z) in He. lia. }
  destruct (is_repeat trgt cur p) eqn:Er; cbv zeta.
  - assert (H4 : 4 <= match_at trgt cur p).
    { unfold is_repeat in Er. apply andb_true_iff in Er as [R1 R2]. rewrite (match_at_word trgt cur p Hp ltac:(lia) Hl ltac:(now apply list_eqb_eq)). cbv zeta.
      match goal with |- context [lcp ?a ?b] => pose proof (lcp_bound a b) end. lia. }
    assert (G : forall c bl', bl' < early \/ bl' < 4 -> c = chain - 1 -> match_at trgt cur p < early ->
      (1 + looked early trgt cur c bl' r = zlen (p :: r) \/ enough early chain trgt cur (take (1 + looked early trgt cur c bl' r) (p :: r))) /\
      (forall j, 0 <= j < 1 + looked early trgt cur c bl' r -> ~ enough early chain trgt cur (take j (p :: r)))).
    { intros c bl' Hbl' -> Hm. destruct (IH (chain - 1) bl' HF ltac:(lia) Hbl') as [I1 I2]. cbv zeta in I1, I2. pose proof (looked_range early trgt cur r (chain - 1) bl') as R. split.
      - destruct I1 as [I1|I1]; [left; rewrite zlen_cons; lia|right]. rewrite take_cons_pos by lia. replace (1 + looked early trgt cur (chain - 1) bl' r - 1) with (looked early trgt cur (chain - 1) bl' r) by lia.
        destruct I1 as [I1|(q & Q1 & Q2)]; [left; rewrite repeats_cons, Er, zlen_cons; lia|right; exists q; split; [rewrite repeats_cons, Er; right; exact Q1|exact Q2]].
      - intros j Hj. destruct (Z.eq_dec j 0) as [-> |Hj0]; [apply Z0|]. rewrite take_cons_pos by lia. intros [He|(q & Q1 & Q2)].
        + apply (I2 (j - 1) ltac:(lia)). left. rewrite repeats_cons, Er, zlen_cons in He. lia.
        + rewrite repeats_cons, Er in Q1. destruct Q1 as [<-|Q1]; [lia|]. apply (I2 (j - 1) ltac:(lia)). right. exists q. split; assumption. }
    destruct (match_at trgt cur p >? bl) eqn:E1; [destruct (match_at trgt cur p >=? early) eqn:E2|].
    + split.
      * right. right. exists p. split; [|lia]. rewrite take_cons_pos by lia. change (1 - 1) with 0. rewrite take_zero, repeats_cons, Er. left; reflexivity.
      * intros j Hj. replace j with 0 by lia. apply Z0.
    + apply G; [left; lia|reflexivity|lia].
    + apply G; [exact Hbl|reflexivity|lia].
  - destruct (IH chain bl HF Hch Hbl) as [I1 I2]. cbv zeta in I1, I2. pose proof (looked_range early trgt cur r chain bl) as R. split.
    + destruct I1 as [I1|I1]; [left; rewrite zlen_cons; lia|right]. rewrite take_cons_pos by lia. replace (1 + looked early trgt cur chain bl r - 1) with (looked early trgt cur chain bl r) by lia.
      destruct I1 as [I1|(q & Q1 & Q2)]; [left; rewrite repeats_cons, Er; lia|right; exists q; split; [rewrite repeats_cons, Er; exact Q1|exact Q2]].
    + intros j Hj. destruct (Z.eq_dec j 0) as [-> |Hj0]; [apply Z0|]. rewrite take_cons_pos by lia. unfold enough. rewrite repeats_cons, Er. apply (I2 (j - 1) ltac:(lia)).
Qed.

(** ** C118 *)
Lemma search_rounds_ok m t B trgt H cur h mm : index_ok t B H -> Forall (fun e => 0 <= fst e < 2 ^ 32) H -> 0 <= h < 2 ^ 32 -> B <= cur -> 0 <= cur -> cur + 4 <= zlen trgt -> zlen trgt < 2 ^ 62 -> 0 <= tm_chain_check t ->
  hidden (32 - t_shift (tm_table t)) h H = false ->
  let l := filed (ch_cap (tm_chain t)) cur h H in let c := if 4 <? mm then Z.max 1 (tm_chain_check t / 4) else tm_chain_check t in
  let k := looked (tm_early t) trgt cur c 0 l in
  Forall (fun p => 0 <= p) l /\
  (forall n, Z.of_nat n < k -> search_rounds n m (tm_set_fwd t h cur) trgt mm = Diverge) /\
  (forall n, k < Z.of_nat n -> search_rounds n m (tm_set_fwd t h cur) trgt mm = Ok (choose (tm_early t) (with_len trgt cur (take c (repeats trgt cur l))))).
Proof.
  intros IX Hr Hh HB Hc0 Hl Hz Hcc Hhid. rewrite Forall_forall in Hr. cbv zeta.
  unfold search_rounds. cbn [tm_set_fwd tm_table tm_hash tm_chain_check].
  rewrite (table_get_ok 32 (tm_table t) H h (ix_table _ _ _ IX) (ix_holds _ _ _ IX)); [|intros x Hx; apply (ix_pos _ _ _ IX x Hx)|exact Hh].
  cbn [bind]. unfold hidden in Hhid.
  assert (Efs : find (at_bucket (tm_table t) (bucket_idx (tm_table t) h)) H = find (fun e => slot (32 - t_shift (tm_table t)) (fst e) =? slot (32 - t_shift (tm_table t)) h) H).
  { apply find_ext_in. intros x Hx. specialize (Hr x Hx). unfold at_bucket. rewrite !(bucket_slot _ _ (ix_table _ _ _ IX)) by lia. reflexivity. }
  rewrite Efs. match goal with |- context [find ?f H] => set (F := f) in * end. pose proof (find_split F H) as FS.
  assert (HF : forall e, (fst e =? h) = true -> F e = true) by (intros e He; apply Z.eqb_eq in He; unfold F; rewrite He; apply Z.eqb_refl).
  set (chain := if 4 <? mm then Z.max 1 (tm_chain_check t / 4) else tm_chain_check t).
  assert (Hch : 0 <= chain) by (unfold chain; destruct (4 <? mm); lia).
  destruct (find F H) as [[h' p]|] eqn:Ef.
  2: { replace (filed (ch_cap (tm_chain t)) cur h H) with (@nil Z); [cbn [repeats filter looked]; rewrite take_nil'; split; [constructor|split; [intros; lia|reflexivity]]|].
       unfold filed. rewrite filter_none; [reflexivity|]. intros x Hx. destruct (fst x =? h) eqn:E; [|reflexivity]. apply HF in E. rewrite (FS x Hx) in E. discriminate. }
  destruct FS as (a & post & HH & Fp & Fa). cbn [fst] in *. destruct (h' =? h) eqn:Eh; cbn [negb] in *; [|discriminate]. apply Z.eqb_eq in Eh. subst h'.
  assert (Hp : 0 <= p < B) by (apply (ix_pos _ _ _ IX (h, p)); rewrite HH; apply in_elt).
  replace (mm >? 4) with (4 <? mm) by lia.
  replace (if 4 <? mm then Z.max (tm_chain_check t / 4) 1 else tm_chain_check t) with chain by (unfold chain; destruct (4 <? mm); lia).
  assert (Hk : filed (ch_cap (tm_chain t)) cur h H = p :: map snd (filter (linked (ch_cap (tm_chain t)) cur h) post)).
  { unfold filed. rewrite HH, filter_app, (filter_none _ a); [|intros x Hx; destruct (fst x =? h) eqn:E; [|reflexivity]; apply HF in E; rewrite (Fa x Hx) in E; discriminate].
    cbn [app filter fst]. rewrite Z.eqb_refl. cbn [snd]. rewrite filter_filter. reflexivity. }
  rewrite Hk.
  set (t1 := tm_set_fwd t h cur). pose proof (index_fwd t B _ h cur IX) as IX1. fold t1 in IX1.
  assert (Hpos : Forall (fun p => 0 <= p) (p :: map snd (filter (linked (ch_cap (tm_chain t)) cur h) post))).
  { constructor; [lia|]. rewrite Forall_map. apply Forall_forall. intros e He. apply filter_In in He as [He _]. apply (ix_pos _ _ _ IX). rewrite HH. apply in_or_app. right; right. exact He. }
  assert (Hlen : Forall (fun c => 0 < snd c) (with_len trgt cur (take chain (repeats trgt cur (p :: map snd (filter (linked (ch_cap (tm_chain t)) cur h) post)))))).
  { pose proof (repeats_len trgt cur _ Hc0 Hl Hpos) as G.
    unfold with_len in *. rewrite Forall_map in *. rewrite Forall_forall in *. intros x Hx. apply in_taken in Hx. specialize (G x Hx). cbn [snd] in *. lia. }
  rewrite <- scan_choose0 by exact Hlen. clear Hlen. split; [exact Hpos|].
  assert (G : forall n,
    (Z.of_nat n < looked (tm_early t) trgt cur chain 0 (p :: map snd (filter (linked (ch_cap (tm_chain t)) cur h) post)) -> find_trgt_loop n m t1 trgt (Some p) p chain None 0 = Diverge) /\
    (looked (tm_early t) trgt cur chain 0 (p :: map snd (filter (linked (ch_cap (tm_chain t)) cur h) post)) < Z.of_nat n ->
       find_trgt_loop n m t1 trgt (Some p) p chain None 0 = Ok (scan (tm_early t) None 0 (with_len trgt cur (take chain (repeats trgt cur (p :: map snd (filter (linked (ch_cap (tm_chain t)) cur h) post)))))))).
  { intros [|n].
    { split; intro Hf; [reflexivity|]. exfalso. match type of Hf with looked ?a ?b ?c ?d ?e ?l < _ => pose proof (looked_range a b c l d e) end. lia. }
    cbn [looked]. destruct (Z.eq_dec chain 0) as [E0|Hne].
    { rewrite E0, take_zero. change (0 =? 0) with true. cbv iota. split; [lia|intros _; reflexivity]. }
    replace (chain =? 0) with false by lia.
    rewrite (loop_step m t1 trgt n (Some p) p chain None 0 p ltac:(lia) Hc0 Hl ltac:(lia) Hne eq_refl).
    change (tm_pos t1) with cur. change (tm_early t1) with (tm_early t).
    pose proof (fun ch best bl H0 => loop_rounds m t1 B H trgt IX1 HB Hl ltac:(lia) n a h p post ch best bl HH eq_refl H0) as LR. cbv zeta in LR.
    change (ch_cap (tm_chain t1)) with (ch_cap (tm_chain t)) in LR. change (tm_pos t1) with cur in LR. change (tm_hash t1) with h in LR. change (tm_early t1) with (tm_early t) in LR.
    rewrite repeats_cons. set (l := map snd (filter (linked (ch_cap (tm_chain t)) cur h) post)) in *.
    destruct (is_repeat trgt cur p).
    + rewrite take_cons_pos by lia. cbn [with_len map scan]. cbv zeta. fold (with_len trgt cur (take (chain - 1) (repeats trgt cur l))).
      destruct (match_at trgt cur p >? 0); [destruct (match_at trgt cur p >=? tm_early t); [split; [lia|reflexivity]|]|].
      * destruct (LR (chain - 1) (Some (p, match_at trgt cur p)) (match_at trgt cur p) ltac:(lia)) as [I1 I2]. split; intro Hf; [apply I1|apply I2]; lia.
      * destruct (LR (chain - 1) None 0 ltac:(lia)) as [I1 I2]. split; intro Hf; [apply I1|apply I2]; lia.
    + destruct (LR chain None 0 ltac:(lia)) as [I1 I2]. split; intro Hf; [apply I1|apply I2]; lia. }
  split; intros n Hn; apply G; exact Hn.
Qed.

(** C118. The index holds [entries]; a search at [cur] for the checksum [h], which nothing hides, looks at the entries filed under [h], newest first, until those seen hold [budget] repeats or one of at least
    [early] bytes, or until there are no more: no more of them, and no fewer. (Entries that are no repeat do not count for [budget].) *)
Theorem C118_entries_looked_at m c trgt : legal_trgt c -> zlen trgt < 2 ^ 62 ->
  exists t0, trgt_build m c trgt 0 = Ok t0 /\
    forall entries cur h min_match, entries_ok cur entries -> 0 <= h < 2 ^ 32 -> 0 <= cur -> cur + 4 <= zlen trgt -> hidden (index_bits (zlen trgt)) h (rev entries) = false ->
      let l := filed (chain_capacity c trgt) cur h (rev entries) in
      exists t k r, stores t0 entries = Ok t /\ 0 <= k <= zlen l /\
        (k = zlen l \/ enough (tc_early c) (budget c min_match) trgt cur (take k l)) /\
        (forall j, 0 <= j < k -> ~ enough (tc_early c) (budget c min_match) trgt cur (take j l)) /\
        find_best_trgt_match m (tm_set_fwd t h cur) trgt min_match = Ok r /\
        (forall n, k < Z.of_nat n -> search_rounds n m (tm_set_fwd t h cur) trgt min_match = Ok r) /\
        (forall n, Z.of_nat n < k -> search_rounds n m (tm_set_fwd t h cur) trgt min_match = Diverge).
Proof.
  intros Hc Hz. destruct (build_ok m c trgt Hc Hz) as (t0 & E & IX & E1 & E2 & E3 & E4). exists t0. split; [exact E|].
  intros entries cur h mm [So Hp] Hh Hc0 Hl Hhid. cbv zeta. destruct (stores_ok entries t0 0 [] IX ltac:(lia) So) as (t & B & F & IX2 & HB & F1 & F2 & F3 & F4).
  { eapply Forall_impl; [|exact Hp]. cbv beta. lia. }
  rewrite app_nil_r in IX2.
  assert (HBc : B <= cur). { destruct HB as [[-> _]|[h' HB]]; [lia|]. rewrite Forall_forall in Hp. specialize (Hp _ HB). cbn [snd] in Hp. lia. }
  assert (Hr : Forall (fun e : Z * Z => 0 <= fst e < 2 ^ 32) (rev entries)) by (apply Forall_rev; eapply Forall_impl; [|exact Hp]; cbv beta; tauto).
  assert (Hcc : 0 <= tm_chain_check t) by (rewrite F2, E2; apply Hc).
  assert (Eh : hidden (32 - t_shift (tm_table t)) h (rev entries) = hidden (index_bits (zlen trgt)) h (rev entries)).
  { rewrite <- E4. unfold hidden. erewrite find_ext_in; [reflexivity|]. intros q Hq. rewrite Forall_forall in Hr. specialize (Hr q Hq). cbv beta.
    rewrite <- !(bucket_slot _ _ (ix_table _ _ _ IX)), <- !(bucket_slot _ _ (ix_table _ _ _ IX2)) by lia. rewrite !F4. reflexivity. }
  pose proof (search_ok m t B trgt (rev entries) cur h mm IX2 Hr Hh HBc Hc0 Hl Hz Hcc) as S1. rewrite Eh, Hhid in S1.
  destruct (search_rounds_ok m t B trgt (rev entries) cur h mm IX2 Hr Hh HBc Hc0 Hl Hz Hcc ltac:(rewrite Eh; exact Hhid)) as (P & R1 & R2).
  rewrite F1, F2, F3, E1, E2, E3 in *. fold (budget c mm) in *.
  assert (Hb : 0 <= budget c mm). { unfold budget. destruct Hc as [Hc _]. destruct (4 <? mm); lia. }
  destruct (looked_spec (tc_early c) trgt cur Hc0 Hl _ (budget c mm) 0 P Hb ltac:(right; lia)) as [K1 K2]. cbv zeta in K1, K2.
  do 3 eexists. split; [exact F|]. split; [|split; [exact K1|split; [exact K2|split; [exact S1|split; [exact R2|exact R1]]]]]. apply looked_range.
Qed.
(** Whether anything hides the checksum or not, the search is one of limited rounds. *)
Lemma search_is_rounds m t trgt mm : exists n, find_best_trgt_match m t trgt mm = search_rounds n m t trgt mm.
Proof.
  unfold find_best_trgt_match, search_rounds. destruct (table_get (tm_table t) (tm_hash t)) as [[p|]| | |]; cbn [bind]; [|exists O; reflexivity..]. cbv zeta. eexists. reflexivity.
Qed.

(** C118, consequence: never more entries than the chain table has places (or one), nor than are filed. *)
Lemma sorted_range : forall (l : list (Z * Z)) lo hi, StronglySorted older l -> Forall (fun e => lo <= snd e < hi) l -> l = [] \/ zlen l <= hi - lo.
Proof.
  induction l as [|x l IH]; intros lo hi S F; [left; reflexivity|right]. apply StronglySorted_inv in S as [S Sx]. apply Forall_cons_iff in F as [Fx F]. rewrite zlen_cons.
  destruct (IH lo (snd x) S) as [-> |G]; [|rewrite (@zlen_nil (Z * Z)); lia|lia].
  rewrite Forall_forall in *. intros e He. specialize (Sx e He). specialize (F e He). unfold older in Sx. lia.
Qed.
Lemma zlen_map {A B} (f : A -> B) l : zlen (map f l) = zlen l.
Proof. unfold zlen. rewrite map_length. reflexivity. Qed.
Lemma filed_len cap cur h entries : entries_ok cur entries -> zlen (filed cap cur h (rev entries)) <= Z.max 1 cap /\ zlen (filed cap cur h (rev entries)) <= zlen entries.
Proof.
  intros [So Hp]. pose proof (sorted_rev _ So) as S. pose proof (sorted_filter _ (fun e => fst e =? h) _ S) as S2.
  assert (Hq : Forall (fun e => 0 <= fst e < 2 ^ 32 /\ 0 <= snd e < cur) (filter (fun e => fst e =? h) (rev entries))).
  { apply Forall_forall. intros e He. apply filter_In in He as [He _]. apply in_rev in He. rewrite Forall_forall in Hp. apply Hp, He. }
  assert (Hn : zlen (filter (fun e => fst e =? h) (rev entries)) <= zlen entries).
  { unfold zlen. pose proof (filter_len (fun e : Z * Z => fst e =? h) (rev entries)) as G. rewrite rev_length in G. lia. }
  unfold filed. destruct (filter (fun e => fst e =? h) (rev entries)) as [|e r]; [rewrite (@zlen_nil Z); pose proof (zlen_nonneg entries); lia|].
  rewrite zlen_cons in *. rewrite zlen_map. apply Forall_cons_iff in Hq as [He Hq]. apply StronglySorted_inv in S2 as [S2 Sx].
  assert (G : zlen (filter (fun e => cur - snd e <? cap) r) <= zlen r) by (unfold zlen; pose proof (filter_len (fun e : Z * Z => cur - snd e <? cap) r); lia).
  split; [|rewrite zlen_cons in Hn; lia].
  assert (Fr : Forall (fun x => cur - cap + 1 <= snd x < snd e) (filter (fun e => cur - snd e <? cap) r)).
  { apply Forall_forall. intros x Hx. apply filter_In in Hx as [Hx Hd]. rewrite Forall_forall in Sx. specialize (Sx x Hx). unfold older in Sx. lia. }
  cbv beta in He. destruct (sorted_range (filter (fun e => cur - snd e <? cap) r) (cur - cap + 1) (snd e) (sorted_filter _ _ _ S2) Fr) as [-> |G2].
  - rewrite (@zlen_nil (Z * Z)). lia.
  - lia.
Qed.
Lemma search_rounds_hidden m t B trgt H cur h mm n : index_ok t B H -> Forall (fun e => 0 <= fst e < 2 ^ 32) H -> 0 <= h < 2 ^ 32 -> hidden (32 - t_shift (tm_table t)) h H = true ->
  search_rounds n m (tm_set_fwd t h cur) trgt mm = find_best_trgt_match m (tm_set_fwd t h cur) trgt mm.
Proof.
  intros IX Hr Hh Hhid. rewrite Forall_forall in Hr. unfold search_rounds, find_best_trgt_match. cbn [tm_set_fwd tm_table tm_hash tm_chain_check].
  rewrite (table_get_ok 32 (tm_table t) H h (ix_table _ _ _ IX) (ix_holds _ _ _ IX)); [|intros x Hx; apply (ix_pos _ _ _ IX x Hx)|exact Hh].
  cbn [bind]. unfold hidden in Hhid.
  assert (Efs : find (at_bucket (tm_table t) (bucket_idx (tm_table t) h)) H = find (fun e => slot (32 - t_shift (tm_table t)) (fst e) =? slot (32 - t_shift (tm_table t)) h) H).
  { apply find_ext_in. intros x Hx. specialize (Hr x Hx). unfold at_bucket. rewrite !(bucket_slot _ _ (ix_table _ _ _ IX)) by lia. reflexivity. }
  rewrite Efs. destruct (find _ H) as [[h' p]|]; [|discriminate]. cbn [fst] in *. destruct (h' =? h); [discriminate|]. reflexivity.
Qed.
Theorem C118_bounded m c trgt t0 t entries cur h min_match n :
  legal_trgt c -> zlen trgt < 2 ^ 62 -> trgt_build m c trgt 0 = Ok t0 -> stores t0 entries = Ok t ->
  entries_ok cur entries -> 0 <= h < 2 ^ 32 -> 0 <= cur -> cur + 4 <= zlen trgt ->
  Z.min (Z.max 1 (chain_capacity c trgt)) (zlen entries) < Z.of_nat n ->
  search_rounds n m (tm_set_fwd t h cur) trgt min_match = find_best_trgt_match m (tm_set_fwd t h cur) trgt min_match.
Proof.
  intros L Hz B S En Hh Hc Hl Hn. destruct (hidden (index_bits (zlen trgt)) h (rev entries)) eqn:Hhid.
  { destruct (build_ok m c trgt L Hz) as (x & E & IX & E1 & E2 & E3 & E4). rewrite B in E. injection E as <-.
    destruct En as [So Hp]. destruct (stores_ok entries t0 0 [] IX ltac:(lia) So) as (t' & B' & F & IX2 & HB & F1 & F2 & F3 & F4).
    { eapply Forall_impl; [|exact Hp]. cbv beta. lia. }
    rewrite S in F. injection F as <-. rewrite app_nil_r in IX2.
    assert (Hr : Forall (fun e : Z * Z => 0 <= fst e < 2 ^ 32) (rev entries)) by (apply Forall_rev; eapply Forall_impl; [|exact Hp]; cbv beta; tauto).
    apply (search_rounds_hidden m t B' trgt (rev entries)); [exact IX2|exact Hr|exact Hh|]. rewrite <- Hhid, <- E4.
    unfold hidden. erewrite find_ext_in; [reflexivity|]. intros q Hq. rewrite Forall_forall in Hr. specialize (Hr q Hq). cbv beta.
    rewrite <- !(bucket_slot _ _ (ix_table _ _ _ IX)), <- !(bucket_slot _ _ (ix_table _ _ _ IX2)) by lia. rewrite !F4. reflexivity. }
  destruct (C118_entries_looked_at m c trgt L Hz) as (x & E & X). rewrite B in E. injection E as <-.
  destruct (X entries cur h min_match En Hh Hc Hl Hhid) as (y & k & r & E & K & _ & _ & Fr & R & _). rewrite S in E. injection E as <-. rewrite Fr. apply R.
  destruct (filed_len (chain_capacity c trgt) cur h entries En). lia.
Qed.
(** C118: so every search the encoder makes (without naive tests) ends after at most as many entries as the chain table has places (or one), nor more than bytes have been passed; and the encoder makes
    at most four rounds of its main loop, with at most one search of each index, per byte of the target. *)
Theorem C118_every_search m src trgt lazy c t0 sm e t min_match n :
  Forall is_byte trgt -> zlen trgt < 2 ^ 62 -> zlen src < 2 ^ 63 -> legal_trgt c -> trgt_build m c trgt 0 = Ok t0 ->
  sm = None \/ (exists sc s, src_build m sc src 0 trgt = Ok s /\ sm = Some s) ->
  visited m src trgt lazy (zlen trgt) (mkE [] 0 4 0 0 StartNewMatch sm (Some t0)) e -> e_st e = TryMatch -> e_cur e + 4 <= zlen trgt -> e_trgt e = Some t ->
  Z.min (Z.max 1 (chain_capacity c trgt)) (e_cur e) < Z.of_nat n ->
  search_rounds n m t trgt min_match = find_best_trgt_match m t trgt min_match.
Proof.
  intros Hb Hz Hs L B Hsm V Hst Hcur Het Hn. pose proof (zlen_nonneg trgt) as Hz0.
  assert (G : forall e, visited m src trgt lazy (zlen trgt) (mkE [] 0 4 0 0 StartNewMatch sm (Some t0)) e -> einv src trgt (zlen trgt) e /\ exists t, e_trgt e = Some t /\ sinv trgt t0 e t).
  { clear e t V Hst Hcur Het Hn. intros e V. induction V as [|e e' V [IV (t & Et & SI)] Hlt Hstep].
    - split.
      + constructor; cbn [e_cur e_min e_byte e_ops e_st e_src e_trgt is_start]; auto; try lia.
        * unfold is_byte. lia.
        * split; constructor.
        * exact I.
        * exact I.
        * destruct Hsm as [->|(sc & s & Es & ->)]; [exact I|]. exact (src_build_rel m sc src trgt 0 s ltac:(lia) Es).
        * exact (trgt_build_rel m c trgt 0 t0 ltac:(lia) B).
      + exists t0. split; [reflexivity|]. destruct (build_dirty _ _ _ _ B) as (D1 & D2 & _). exists (zlen trgt), [], t0. cbn [e_cur e_st stores]. split; [lia|]. split; [right; reflexivity|]. split; [split; constructor|]. split; [constructor|]. split; [reflexivity|].
        split; [destruct t0; reflexivity|]. left. auto.
    - split; [exact (estep_inv m src trgt lazy (zlen trgt) e e' Hb ltac:(lia) ltac:(lia) ltac:(lia) Hlt IV Hstep)|]. exact (estep_sinv m src trgt lazy (zlen trgt) e e' t0 t Hz ltac:(lia) Hlt IV Et SI Hstep). }
  destruct (G e V) as [IV (t' & Et' & SI)]. rewrite Het in Et'. injection Et' as <-. destruct SI as (j & en & t1 & J1 & J2 & Eok & Eh & St & Eq & Hh). rewrite Hst in Hh.
  pose proof (iv_cur _ _ _ _ IV) as Hc. pose proof (iv_tm _ _ _ _ IV) as R. rewrite Het, Hst in R. cbn [is_start] in R. destruct R as (_ & _ & R3).
  rewrite Hh, R3 in Eq. rewrite Eq. apply (C118_bounded m c trgt t0 t1 en); [exact L|exact Hz|exact B|exact St|exact Eok|apply hash_used_range|lia|exact Hcur|].
  assert (zlen en <= e_cur e); [|lia]. destruct Eok as [So Hp]. destruct (sorted_range (rev en) 0 (e_cur e) (sorted_rev _ So)) as [E|E].
  - apply Forall_rev. eapply Forall_impl; [|exact Hp]. cbv beta. tauto.
  - apply (f_equal (@rev _)) in E. rewrite rev_involutive in E. cbn [rev] in E. rewrite E. unfold zlen. cbn [length]. lia.
  - unfold zlen in *. rewrite rev_length in E. lia.
Qed.
(** The rounds of the main loop: [steps n e e'] if [n] rounds lead from [e] to [e']. *)
Inductive steps (m : mode) (src trgt : list Z) (lazy mx : Z) : nat -> est -> est -> Prop :=
| steps_0 e : steps m src trgt lazy mx 0 e e
| steps_S n e e1 e' : e_cur e + 4 < mx -> estep m src trgt lazy mx e = Ok e1 -> steps m src trgt lazy mx n e1 e' -> steps m src trgt lazy mx (S n) e e'.
Lemma estep_down m src trgt lazy mx e e' : einv src trgt mx e -> e_cur e + 4 < mx -> estep m src trgt lazy mx e = Ok e' -> mu trgt e' < mu trgt e.
Proof.
  intros IV Hc H. pose proof (iv_st _ _ _ _ IV) as Vs. unfold mu. unfold estep in H. destruct (e_st e) as [| |len|] eqn:Est; cbn [rank].
  - unfold start_new_match in H. apply bind_ok in H as ([r b] & _ & H). apply bind_ok in H as (sm & _ & H). apply bind_ok in H as (tm & _ & H). injection H as <-. cbn [e_cur e_st rank]. lia.
  - apply try_keeps in H as (_ & -> & K3 & K4). destruct (e_st e'); cbn [rank]; [congruence|congruence|lia|lia].
  - unfold found_match in H. apply bind_ok in H as (l & _ & H). destruct (_ && _ && _); injection H as <-; cbn [e_cur e_st rank]; [lia|]. destruct Vs as (V1 & V2 & V3). lia.
  - unfold move_forward in H. apply bind_ok in H as (c & _ & H). apply bind_ok in H as (tm & _ & H). apply bind_ok in H as (sm & _ & H). injection H as <-. cbn [e_cur e_st rank]. lia.
Qed.
(** C118: the main loop makes at most four rounds per byte of the target (one of them a search). *)
Theorem C118_rounds m src trgt lazy ot sm n e :
  Forall is_byte trgt -> zlen trgt < 2 ^ 62 -> zlen src < 2 ^ 63 ->
  ot = None \/ (exists c t, trgt_build m c trgt 0 = Ok t /\ ot = Some t) -> sm = None \/ (exists sc s, src_build m sc src 0 trgt = Ok s /\ sm = Some s) ->
  steps m src trgt lazy (zlen trgt) n (mkE [] 0 4 0 0 StartNewMatch sm ot) e -> Z.of_nat n <= 4 * zlen trgt.
Proof.
  intros Hb Hz Hs Hot Hsm St. pose proof (zlen_nonneg trgt) as Hz0.
  assert (G : forall n e1 e2, steps m src trgt lazy (zlen trgt) n e1 e2 -> einv src trgt (zlen trgt) e1 -> n = O \/ Z.of_nat n <= mu trgt e1 - 3).
  { clear n e St. intros n e1 e2 St. induction St as [e1|n e1 e2 e3 Hlt Hstep St IH]; intro IV; [left; reflexivity|right].
    pose proof (estep_down m src trgt lazy (zlen trgt) e1 e2 IV Hlt Hstep) as D. pose proof (estep_inv m src trgt lazy (zlen trgt) e1 e2 Hb ltac:(lia) ltac:(lia) ltac:(lia) Hlt IV Hstep) as IV2.
    destruct (IH IV2) as [-> |H]; [|lia]. unfold mu in *. destruct (e_st e1), (e_st e2); cbn [rank] in *; lia. }
  specialize (G n _ _ St). destruct G as [-> |G].
  - constructor; cbn [e_cur e_min e_byte e_ops e_st e_src e_trgt is_start]; auto; try lia.
    + unfold is_byte. lia.
    + split; constructor.
    + exact I.
    + exact I.
    + destruct Hsm as [->|(sc & s & Es & ->)]; [exact I|]. exact (src_build_rel m sc src trgt 0 s ltac:(lia) Es).
    + destruct Hot as [->|(c & t & Et & ->)]; [exact I|]. exact (trgt_build_rel m c trgt 0 t ltac:(lia) Et).
  - lia.
  - unfold mu in G. cbn [e_cur e_st rank] in G. lia.
Qed.

(** C118, finding: "max number of entries to check in the chain during matching" does not hold. With [chain_check] = 1 a search can look at any number of entries:
    [N] words with the checksum of the word searched, none of them equal to it. *)
Definition word_a : list Z := [0; 234; 61; 2].
Definition word_b : list Z := [129; 0; 0; 0].
Definition collisions (N : nat) : list Z := concat (repeat word_a N) ++ word_b.
Lemma collisions_len N : zlen (concat (repeat word_a N)) = 4 * Z.of_nat N.
Proof. induction N as [|N IH]; [reflexivity|]. cbn [repeat concat]. rewrite zlen_app, IH. change (zlen word_a) with 4. lia. Qed.
Lemma collisions_word N i : (i < N)%nat -> sub (collisions N) (4 * Z.of_nat i) 4 = word_a.
Proof.
  intro Hi. unfold collisions. replace N with (i + S (N - i - 1))%nat by lia. rewrite repeat_app, concat_app, <- app_assoc. cbn [repeat concat].
  rewrite <- !app_assoc. rewrite <- (collisions_len i). set (a := concat (repeat word_a i)). clearbody a.
  unfold sub, take, drop. replace (Z.to_nat (zlen a)) with (length a) by (unfold zlen; lia). rewrite skipn_app, skipn_all, Nat.sub_diag. reflexivity.
Qed.
Lemma collisions_last N : sub (collisions N) (4 * Z.of_nat N) 4 = word_b.
Proof.
  unfold collisions. rewrite <- (collisions_len N). set (a := concat (repeat word_a N)). clearbody a.
  unfold sub, take, drop. replace (Z.to_nat (zlen a)) with (length a) by (unfold zlen; lia). rewrite skipn_app, skipn_all, Nat.sub_diag. reflexivity.
Qed.
Theorem C118_chain_check_is_no_bound : forall N : nat, Z.of_nat N < 2 ^ 59 -> exists c trgt entries, legal_trgt c /\ tc_chain_check c = 1 /\ Forall is_byte trgt /\ zlen trgt = 4 * Z.of_nat N + 4 /\
  entries = words trgt (map (fun i => 4 * Z.of_nat i) (seq 0 N)) /\
  forall m, exists t0 t, trgt_build m c trgt 0 = Ok t0 /\ stores t0 entries = Ok t /\
    let h := word_hash trgt (4 * Z.of_nat N) in
    find_best_trgt_match m (tm_set_fwd t h (4 * Z.of_nat N)) trgt 4 = Ok None /\
    forall n, (n < N)%nat -> search_rounds n m (tm_set_fwd t h (4 * Z.of_nat N)) trgt 4 = Diverge.
Proof.
  intros N HN. set (K := 2 ^ Z.log2_up (4 * Z.of_nat N + 5)). exists (mkTC 70 1 (Some K)), (collisions N), (words (collisions N) (map (fun i => 4 * Z.of_nat i) (seq 0 N))).
  assert (HL : legal_trgt (mkTC 70 1 (Some K))).
  { split; [cbn [tc_chain_check]; lia|]. cbn [tc_capacity]. right. exists (Z.log2_up (4 * Z.of_nat N + 5)). split; [apply Z.log2_up_nonneg|reflexivity]. }
  assert (HK : 4 * Z.of_nat N + 5 <= K) by (apply Z.log2_up_spec; lia).
  assert (Hlen : zlen (collisions N) = 4 * Z.of_nat N + 4) by (unfold collisions; rewrite zlen_app, collisions_len; reflexivity).
  split; [exact HL|]. split; [reflexivity|]. split.
  { unfold collisions. apply Forall_app. split; [|repeat (constructor; [unfold is_byte; lia|]); constructor]. apply Forall_concat. apply Forall_forall. intros x Hx. apply repeat_spec in Hx as ->. repeat (constructor; [unfold is_byte; lia|]); constructor. }
  split; [exact Hlen|]. split; [reflexivity|]. intro m.
  destruct (C118_entries_looked_at m _ (collisions N) HL ltac:(lia)) as (t0 & E & X). exists t0. set (cur := 4 * Z.of_nat N) in *. set (trgt := collisions N) in *. set (en := words trgt _) in *.
  assert (En : entries_ok cur en).
  { apply words_ok.
    - generalize 0%nat. clear. induction N as [|N IH]; intro k; cbn [seq map]; [constructor|]. constructor; [apply IH|]. apply Forall_forall. intros x Hx. apply in_map_iff in Hx as (y & <- & Hy). apply in_seq in Hy. lia.
    - apply Forall_forall. intros x Hx. apply in_map_iff in Hx as (y & <- & Hy). apply in_seq in Hy. unfold cur. lia. }
  assert (Hh : word_hash trgt cur = calculate_small_checksum word_b) by (unfold word_hash; unfold trgt, cur; rewrite collisions_last; reflexivity).
  assert (Hall : forall e, In e en -> fst e = word_hash trgt cur /\ 0 <= snd e /\ sub trgt (snd e) 4 = word_a).
  { intros e He. unfold en, words in He. rewrite map_map in He. apply in_map_iff in He as (i & <- & Hi). apply in_seq in Hi. cbn [fst snd]. split; [|split; [lia|apply collisions_word; lia]].
    rewrite Hh. unfold word_hash. unfold trgt. rewrite collisions_word by lia. vm_compute. reflexivity. }
  assert (Hhid : hidden (index_bits (zlen trgt)) (word_hash trgt cur) (rev en) = false).
  { unfold hidden. destruct (find _ (rev en)) as [e|] eqn:Ef; [|reflexivity]. apply find_some in Ef as [Hi _]. apply in_rev in Hi. destruct (Hall e Hi) as [-> _]. rewrite Z.eqb_refl. reflexivity. }
  destruct (X en cur (word_hash trgt cur) 4 En (small_range _) ltac:(unfold cur; lia) ltac:(lia) Hhid) as (t & k & r & S & Hk & K1 & K2 & Fr & R1 & R2). clear X.
  exists t. split; [exact E|]. split; [exact S|]. cbv zeta.
  assert (Efl : filed (chain_capacity (mkTC 70 1 (Some K)) trgt) cur (word_hash trgt cur) (rev en) = map snd (rev en)).
  { unfold filed. rewrite filter_all; [|intros x Hx; apply in_rev in Hx; destruct (Hall x Hx) as [-> _]; apply Z.eqb_refl]. destruct (rev en) as [|e l] eqn:Er; [reflexivity|]. cbn [map]. f_equal. rewrite filter_all; [reflexivity|].
    intros x Hx. assert (Hi : In x (rev en)) by (rewrite Er; right; exact Hx). apply in_rev in Hi. destruct (Hall x Hi) as (_ & H0 & _). cbn [chain_capacity tc_capacity]. unfold cur. lia. }
  rewrite Efl in *.
  assert (Enr : forall l, (forall p, In p l -> In p (map snd (rev en))) -> repeats trgt cur l = []).
  { intros l Hl. apply filter_none. intros p Hp. specialize (Hl p Hp). apply in_map_iff in Hl as (e & <- & Hi). apply in_rev in Hi. destruct (Hall e Hi) as (_ & _ & ->). unfold trgt, cur. rewrite collisions_last. rewrite andb_comm. reflexivity. }
  assert (Ek : k = Z.of_nat N).
  { assert (El : zlen (map snd (rev en)) = Z.of_nat N) by (unfold zlen, en, words; rewrite map_length, rev_length, !map_length, seq_length; reflexivity).
    destruct K1 as [K1|[K1|(p & Hp & _)]]; [lia| |]; rewrite Enr in * by (intros q Hq; exact (in_taken _ _ _ Hq)); [|destruct Hp]. change (budget _ _) with 1 in K1. rewrite (@zlen_nil Z) in K1. lia. }
  split.
  - destruct (C105_search_exact m _ trgt HL ltac:(lia)) as (x & E' & X). rewrite E in E'. injection E' as <-. destruct (X en cur (word_hash trgt cur) 4 En (small_range _) ltac:(unfold cur; lia) ltac:(lia)) as (y & E' & Y). rewrite S in E'. injection E' as <-.
    rewrite Y, Hhid, Efl, Enr by auto. rewrite take_nil'. reflexivity.
  - intros n Hn. apply R2. lia.
Qed.

(** ** Beside the theorems *)
(** Two repeats before position 12 of [ts2]: the newer is enough when one repeat is, or when four bytes are; otherwise both are looked at. *)
Example C118_bounded_example :
  legal_trgt (mkTC 70 1 None) /\ entries_ok 12 (words ts2 [0; 7]) /\ hidden (index_bits (zlen ts2)) (word_hash ts2 12) (rev (words ts2 [0; 7])) = false /\
  filed (chain_capacity (mkTC 70 1 None) ts2) 12 (word_hash ts2 12) (rev (words ts2 [0; 7])) = [7; 0] /\ enough 70 1 ts2 12 [7] /\ ~ enough 70 33 ts2 12 [7] /\ enough 4 33 ts2 12 [7].
Proof.
  split; [apply legal_auto; lia|]. split; [apply words_ok; [repeat constructor; lia|repeat constructor; lia]|]. split; [vm_compute; reflexivity|]. split; [vm_compute; reflexivity|].
  split; [left; vm_compute; discriminate|]. split; [|right; exists 7; split; [left; reflexivity|vm_compute; discriminate]].
  assert (E : repeats ts2 12 [7] = [7]) by (vm_compute; reflexivity). unfold enough. rewrite E. intros [H|(p & [<-|[]] & H)]; vm_compute in H; apply H; reflexivity.
Qed.
Definition rounds_check m c trgt entries cur n : res (option (Z * Z)) := do t0 <- trgt_build m c trgt 0; do t <- stores t0 entries; search_rounds n m (tm_set_fwd t (word_hash trgt cur) cur) trgt 4.
Example C118_entries_looked_at_example : forall m,
  rounds_check m (mkTC 70 1 None) ts2 (words ts2 [0; 7]) 12 0 = Diverge /\ rounds_check m (mkTC 70 1 None) ts2 (words ts2 [0; 7]) 12 2 = Ok (Some (7, 4)) /\
  rounds_check m (mkTC 70 33 None) ts2 (words ts2 [0; 7]) 12 1 = Diverge /\ rounds_check m (mkTC 70 33 None) ts2 (words ts2 [0; 7]) 12 3 = Ok (Some (0, 6)).
Proof. intro m. destruct m; repeat split; vm_compute; reflexivity. Qed.
(** The default settings' chain table has a place for half the target, at most 2^18: with it too the collisions are all looked at (here the 15 in reach; [chain_check] is 1). *)
Example C118_chain_check_is_no_bound_example : forall m, let trgt := collisions 30 in let en := words trgt (map (fun i => 4 * Z.of_nat i) (seq 0 30)) in
  chain_capacity (mkTC 70 1 None) trgt = 64 /\ rounds_check m (mkTC 70 1 None) trgt en 120 14 = Diverge /\ rounds_check m (mkTC 70 1 None) trgt en 120 17 = Ok None.
Proof. intro m. cbv zeta. split; [vm_compute; reflexivity|]. destruct m; split; vm_compute; reflexivity. Qed.
Example C118_every_search_example : forall m, exists t0 e t, trgt_build m (mkTC 70 33 None) ts3 0 = Ok t0 /\ visited m [] ts3 0 (zlen ts3) (mkE [] 0 4 0 0 StartNewMatch None (Some t0)) e /\ e_st e = TryMatch /\ e_cur e = 18 /\ e_trgt e = Some t /\
  chain_capacity (mkTC 70 33 None) ts3 = 16 /\ search_rounds 17 m t ts3 4 = Ok (Some (6, 6)).
Proof.
  intro m. destruct (C105_every_search_example m) as (t0 & e & t & B & V & St & Ec & Hc & Et & F). exists t0, e, t. split; [exact B|]. split; [exact V|]. split; [exact St|]. split; [exact Ec|]. split; [exact Et|]. split; [vm_compute; reflexivity|].
  rewrite <- F. apply (C118_every_search m [] ts3 0 (mkTC 70 33 None) t0 None e t 4 17); [|vm_compute; reflexivity|vm_compute; reflexivity|apply legal_auto; lia|exact B|left; reflexivity|exact V|exact St|exact Hc|exact Et|rewrite Ec; vm_compute; reflexivity].
  repeat (constructor; [unfold is_byte; lia|]); constructor.
Qed.
Lemma rounds_steps m : forall n e e', rounds n m e = Ok e' -> steps m [] ts3 0 (zlen ts3) n e e'.
Proof.
  induction n as [|n IH]; intros e e' H; cbn [rounds] in H; [injection H as <-; constructor|]. destruct (e_cur e + 4 <? zlen ts3) eqn:E; [|discriminate]. apply bind_ok in H as (e1 & E1 & H). econstructor; [lia|exact E1|exact (IH _ _ H)].
Qed.
Example C118_rounds_example : forall m, exists t0 e, trgt_build m (mkTC 70 33 None) ts3 0 = Ok t0 /\ steps m [] ts3 0 (zlen ts3) 23 (mkE [] 0 4 0 0 StartNewMatch None (Some t0)) e /\ e_cur e = 18 /\ zlen ts3 = 26.
Proof.
  intro m. destruct (trgt_build_total m (mkTC 70 33 None) ts3 (legal_auto 70 33 ltac:(lia)) ltac:(vm_compute; reflexivity)) as (t0 & E & _).
  assert (C : (do t0 <- trgt_build m (mkTC 70 33 None) ts3 0; do e <- rounds 23 m (mkE [] 0 4 0 0 StartNewMatch None (Some t0)); Ok (e_cur e)) = Ok 18) by (destruct m; vm_compute; reflexivity).
  rewrite E in C. cbn [bind] in C. apply bind_ok in C as (e & Er & C). injection C as C. exists t0, e. split; [exact E|]. split; [apply rounds_steps; exact Er|]. split; [exact C|reflexivity].
Qed.
Print Assumptions C118_entries_looked_at.
Print Assumptions C118_bounded.
Print Assumptions C118_every_search.
Print Assumptions C118_rounds.
Print Assumptions C118_chain_check_is_no_bound.
