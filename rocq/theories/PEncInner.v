(** Soundness of the inner encoder (encoder.rs): whatever it returns is a list of true, ordered candidate matches. *)
From Verif Require Import Base Spec SpecEnc MHasher MHashmap MTrgtMatcher MSrcMatcher MEncInner PBase.
Ltac Zify.zify_post_hook ::= idtac.
Arguments Z.mul : simpl never.
Arguments Z.pow : simpl never.
Arguments Z.add : simpl never.
Arguments Z.sub : simpl never.
Arguments Z.modulo : simpl never.
Arguments Z.div : simpl never.

(** ** Lists *)
Lemma zlen_take_le {A} n (l : list A) : zlen (take n l) <= zlen l.
Proof. rewrite zlen_take_min. pose proof (zlen_nonneg l). lia. Qed.
Lemma lcp_bound a : forall b, 0 <= lcp a b <= zlen a /\ lcp a b <= zlen b.
Proof.
  induction a as [|x a IH]; intros b.
  - cbn [lcp]. rewrite (@zlen_nil Z). pose proof (zlen_nonneg b). lia.
  - pose proof (zlen_nonneg a). destruct b as [|y b]; cbn [lcp]; rewrite ?zlen_cons, ?(@zlen_nil Z); [lia|].
    pose proof (zlen_nonneg b). destruct (x =? y); [|lia]. specialize (IH b). lia.
Qed.
Lemma lcp_take a : forall b, take (lcp a b) a = take (lcp a b) b.
Proof.
  induction a as [|x a IH]; intros [|y b]; cbn [lcp]; rewrite ?(take_0 0) by lia; try reflexivity.
  destruct (x =? y) eqn:E; [|now rewrite !take_0 by lia]. apply Z.eqb_eq in E. subst y.
  pose proof (lcp_bound a b) as [H _]. unfold take in *. replace (Z.to_nat (1 + lcp a b)) with (S (Z.to_nat (lcp a b))) by lia.
  cbn [firstn]. f_equal. apply IH.
Qed.
Lemma run_count_bound b l : 0 <= run_count b l <= zlen l.
Proof. induction l as [|x l IH]; cbn [run_count]; rewrite ?zlen_cons, ?(@zlen_nil Z); [lia|]. destruct (x =? b); lia. Qed.
Lemma run_count_take b l : take (run_count b l) l = rep b (run_count b l).
Proof.
  induction l as [|x l IH]; cbn [run_count]; [reflexivity|]. destruct (x =? b) eqn:E; [|now rewrite take_0, rep_0 by lia].
  apply Z.eqb_eq in E. subst x. pose proof (run_count_bound b l). rewrite (rep_S b) by lia. replace (1 + run_count b l - 1) with (run_count b l) by lia.
  rewrite <- IH. unfold take. replace (Z.to_nat (1 + run_count b l)) with (S (Z.to_nat (run_count b l))) by lia. reflexivity.
Qed.
Lemma run_count_rep b n l : 0 <= n -> run_count b (rep b n ++ l) = n + run_count b l.
Proof.
  intro H. unfold rep. replace n with (Z.of_nat (Z.to_nat n)) at 2 by lia. generalize (Z.to_nat n) as k. induction k as [|k IH]; [reflexivity|].
  cbn [repeat app run_count]. rewrite Z.eqb_refl, IH. lia.
Qed.
Lemma rev_take {A} n (l : list A) : 0 <= n <= zlen l -> rev (take n l) = drop (zlen l - n) (rev l).
Proof.
  intro H. rewrite <- (take_drop n l) at 3. rewrite rev_app_distr. symmetry. apply drop_app.
  rewrite zlen_rev, zlen_drop by lia. lia.
Qed.
Lemma take_rev {A} n (l : list A) : 0 <= n <= zlen l -> take n (rev l) = rev (drop (zlen l - n) l).
Proof.
  intro H. rewrite <- (take_drop (zlen l - n) l) at 1. rewrite rev_app_distr. apply take_app.
  rewrite zlen_rev, zlen_drop by lia. lia.
Qed.

(** ** Candidates, last first *)
Fixpoint rordered (l : list cand) : Prop :=
  match l with
  | a :: ((b :: _) as r) => c_pos b <= c_pos a /\ c_end b <= c_end a /\ rordered r
  | _ => True
  end.
Lemma rordered_tail a l : rordered (a :: l) -> rordered l.
Proof. destruct l as [|b l]; [easy|]. intros (_ & _ & H). exact H. Qed.
Lemma ordered_snoc a : forall l, cands_ordered l -> (forall d, In d l -> c_pos d <= c_pos a /\ c_end d <= c_end a) -> cands_ordered (l ++ [a]).
Proof.
  induction l as [|x l IH]; intros Ho Hl; [exact I|]. destruct l as [|y l].
  - destruct (Hl x (or_introl eq_refl)). cbn. auto.
  - destruct Ho as (H1 & H2 & H3). split; [exact H1|]. split; [exact H2|]. apply IH; [exact H3|]. intros d Hd. apply Hl. now right.
Qed.
Lemma rordered_head_max : forall l a, rordered (a :: l) -> forall d, In d l -> c_pos d <= c_pos a /\ c_end d <= c_end a.
Proof.
  induction l as [|b l IH]; intros a Ho d Hd; [easy|]. destruct Ho as (H1 & H2 & H3). destruct Hd as [<-|Hd]; [auto|].
  destruct (IH b H3 d Hd). lia.
Qed.
Lemma rordered_rev l : rordered l -> cands_ordered (rev l).
Proof.
  induction l as [|a l IH]; intro H; [exact I|]. cbn [rev]. apply ordered_snoc.
  - apply IH. eapply rordered_tail, H.
  - intros d Hd. apply in_rev in Hd. eapply rordered_head_max; eauto.
Qed.

Definition head_pos_le (ops : list cand) (p : Z) : Prop := match ops with c :: _ => c_pos c <= p | [] => True end.
Definition cands_ok (src trgt : list Z) (ops : list cand) : Prop := Forall (cand_sound src trgt) ops /\ rordered ops.

Lemma cands_push src trgt ops c : cands_ok src trgt ops -> cand_sound src trgt c -> head_pos_le ops (c_pos c) -> last_end ops <= c_end c ->
  cands_ok src trgt (c :: ops).
Proof.
  intros [H1 H2] Hc Hp He. split; [now constructor|]. destruct ops as [|b ops]; [exact I|]. cbn in Hp, He. unfold c_end in *. cbn. unfold c_end. auto.
Qed.
Lemma last_end_le src trgt ops : cands_ok src trgt ops -> 0 <= last_end ops <= zlen trgt.
Proof.
  intros [H _]. destruct ops as [|c ops]; cbn; [pose proof (zlen_nonneg trgt); lia|]. apply Forall_cons_iff in H as [(A & B & C & _) _].
  unfold c_end in C. lia.
Qed.
Lemma clear_ops_ok src trgt : forall ops start ops', cands_ok src trgt ops -> clear_ops ops start = Ok ops' ->
  cands_ok src trgt ops' /\ head_pos_le ops' start /\ last_end ops' <= last_end ops.
Proof.
  induction ops as [|c ops IH]; intros start ops' H E; cbn [clear_ops] in E.
  - destruct (0 >=? start); [discriminate|]. injection E as <-. repeat split; auto; lia.
  - destruct (c_pos c >=? start) eqn:Ec.
    + assert (Ht : cands_ok src trgt ops) by (destruct H as [H1 H2]; split; [now inversion H1|now apply rordered_tail in H2]).
      destruct (IH _ _ Ht E) as (A & B & C). split; [exact A|]. split; [exact B|]. etransitivity; [exact C|].
      destruct H as [H1 H2]. destruct ops as [|b ops]; cbn [last_end].
      * apply Forall_cons_iff in H1 as [(P & Q & _) _]. lia.
      * destruct H2 as (_ & G & _). exact G.
    + injection E as <-. split; [exact H|]. split; [cbn; lia|lia].
Qed.

(** ** Matches *)
Lemma sub_extend (x y : list Z) a b n k : 0 <= a -> 0 <= b -> 0 <= n -> 0 <= k -> sub x a n = sub y b n ->
  sub x (a + n) k = sub y (b + n) k -> sub x a (n + k) = sub y b (n + k).
Proof.
  intros Ha Hb Hn Hk H1 H2. rewrite (sub_split x a (n + k) n), (sub_split y b (n + k) n) by lia.
  replace (n + k - n) with k by lia. congruence.
Qed.
Lemma lcp_sub (x y : list Z) a b n : 0 <= a -> 0 <= b -> 0 <= n ->
  sub x a (lcp (sub x a n) (sub y b n)) = sub y b (lcp (sub x a n) (sub y b n)) /\
  (0 <= lcp (sub x a n) (sub y b n) <= n).
Proof.
  intros Ha Hb Hn. set (k := lcp _ _). pose proof (lcp_bound (sub x a n) (sub y b n)) as Hk. fold k in Hk.
  assert (zlen (sub x a n) <= n) by (unfold sub; rewrite zlen_take_min; lia).
  split; [|lia]. rewrite <- (take_sub x a n k), <- (take_sub y b n k) by lia. apply lcp_take.
Qed.

Lemma extend_src_sound m src ss trgt ts pre post : extend_src_match m src ss trgt ts = Ok (Some (pre, post)) ->
  zlen src < 2 ^ 64 -> zlen trgt < 2 ^ 64 ->
  0 <= ss /\ 0 <= ts /\ 0 <= pre /\ 0 <= post /\ (pre = 0 \/ pre < ss /\ pre < ts) /\ ss + 9 + post <= zlen src /\ ts + 9 + post <= zlen trgt /\
  sub trgt (ts - pre) (pre + (post + 9)) = sub src (ss - pre) (pre + (post + 9)).
Proof.
  unfold extend_src_match. intros H Hls Hlt. apply bind_ok in H as (a & Ha & H). apply bind_ok in H as (b & Hb & H).
  apply slice_inv in Ha as (A1 & A2 & ->). apply slice_inv in Hb as (B1 & B2 & ->).
  replace (ss + 9 - ss) with 9 in H by lia. replace (ts + 9 - ts) with 9 in H by lia.
  destruct (list_eqb (sub src ss 9) (sub trgt ts 9)) eqn:E; cbn [negb] in H; [|discriminate]. apply list_eqb_eq in E.
  rewrite !usub_ok in H by lia. cbn [bind] in H.
  injection H as Epre Epost.
  assert (Hpost : 0 <= post <= Z.min (zlen src - (ss + 9)) (zlen trgt - (ts + 9)) /\ sub src (ss + 9) post = sub trgt (ts + 9) post).
  { subst post. split; apply lcp_sub; lia. }
  set (k := Z.min ss ts - 1) in *.
  assert (Hpre : 0 <= pre /\ (pre = 0 \/ pre <= k) /\ sub src (ss - pre) pre = sub trgt (ts - pre) pre).
  { pose proof (lcp_bound (take k (rev (take ss src))) (take k (rev (take ts trgt)))) as Hb. rewrite Epre in Hb.
    pose proof (lcp_take (take k (rev (take ss src))) (take k (rev (take ts trgt)))) as Ht. rewrite Epre in Ht.
    destruct (Z.leb_spec k 0) as [Hk|Hk].
    - rewrite !(take_0 k) in * by lia. rewrite (@zlen_nil Z) in Hb. assert (E0 : pre = 0) by lia. rewrite E0. rewrite !sub_0 by lia. repeat split; auto; lia.
    - assert (Hpk : pre <= k).
      { assert (zlen (take k (rev (take ss src))) <= k) by (rewrite zlen_take_min; lia). lia. }
      split; [lia|]. split; [lia|].
      rewrite !take_take in Ht. rewrite Z.min_l in Ht by lia.
      assert (G : forall (l : list Z) p, pre <= p -> p <= zlen l -> take pre (rev (take p l)) = rev (sub l (p - pre) pre)).
      { intros l p Hp Hpl. rewrite take_rev by (rewrite zlen_take by lia; lia). rewrite zlen_take by lia. f_equal.
        unfold sub. rewrite take_drop_comm by lia. now replace (p - pre + pre) with p by lia. }
      rewrite !G in Ht by lia. apply (f_equal (@rev Z)) in Ht. now rewrite !rev_involutive in Ht. }
  destruct Hpost as [P1 P2]. destruct Hpre as (Q1 & Q2 & Q3).
  split; [lia|]. split; [lia|]. split; [lia|]. split; [lia|]. split; [lia|]. split; [lia|]. split; [lia|].
  apply sub_extend; try lia; [congruence|]. replace (ts - pre + pre) with ts by lia. replace (ss - pre + pre) with ss by lia.
  rewrite (Z.add_comm post 9). apply sub_extend; try lia; congruence.
Qed.

Lemma find_trgt_loop_sound m t trgt : zlen trgt < 2 ^ 64 -> forall fuel once last chain best bl s n,
  (forall s n, best = Some (s, n) -> 0 <= s /\ 0 <= n /\ s + n <= tm_pos t /\ tm_pos t + n <= zlen trgt /\ sub trgt (tm_pos t) n = sub trgt s n) ->
  find_trgt_loop fuel m t trgt once last chain best bl = Ok (Some (s, n)) ->
  0 <= s /\ 0 <= n /\ s + n <= tm_pos t /\ tm_pos t + n <= zlen trgt /\ sub trgt (tm_pos t) n = sub trgt s n.
Proof.
  intro Hlt. induction fuel as [|k IH]; intros once last chain best bl s n Hbest H; cbn [find_trgt_loop] in H; [discriminate|].
  destruct (chain =? 0); [injection H as H; now apply Hbest|].
  apply bind_ok in H as (nxt & _ & H). destruct nxt as [start|]; [|injection H as H; now apply Hbest].
  destruct (start + 4 <? tm_pos t) eqn:E1; cbn [negb] in H; [|now apply IH in H].
  apply bind_ok in H as (a & Ha & H). apply bind_ok in H as (b & Hb & H).
  apply slice_inv in Ha as (A1 & A2 & ->). apply slice_inv in Hb as (B1 & B2 & ->).
  replace (start + 4 - start) with 4 in H by lia. replace (tm_pos t + 4 - tm_pos t) with 4 in H by lia.
  destruct (list_eqb (sub trgt start 4) (sub trgt (tm_pos t) 4)) eqn:E; cbn [negb] in H; [|now apply IH in H]. apply list_eqb_eq in E.
  rewrite !usub_ok in H by lia. cbn [bind] in H.
  set (r := Z.min (tm_pos t - (start + 4)) (zlen trgt - (tm_pos t + 4))) in *.
  destruct (lcp_sub trgt trgt (start + 4) (tm_pos t + 4) r ltac:(lia) ltac:(lia) ltac:(lia)) as [L1 L2].
  set (k' := lcp (sub trgt (start + 4) r) (sub trgt (tm_pos t + 4) r)) in *.
  assert (Hnew : 0 <= start /\ 0 <= k' + 4 /\ start + (k' + 4) <= tm_pos t /\ tm_pos t + (k' + 4) <= zlen trgt /\ sub trgt (tm_pos t) (k' + 4) = sub trgt start (k' + 4)).
  { split; [lia|]. split; [lia|]. split; [lia|]. split; [lia|]. rewrite (Z.add_comm k' 4). apply sub_extend; try lia; congruence. }
  destruct (k' + 4 >? bl).
  - destruct (k' + 4 >=? tm_early t).
    + injection H as <- <-. exact Hnew.
    + apply IH in H; [exact H|]. intros ? ? [= <- <-]. exact Hnew.
  - apply IH in H; auto.
Qed.

Lemma find_trgt_sound m t trgt mm s n : zlen trgt < 2 ^ 64 -> find_best_trgt_match m t trgt mm = Ok (Some (s, n)) ->
  cand_sound [] trgt (MTrgt s n (tm_pos t)) /\ 0 <= tm_pos t.
Proof.
  intros Hlt H. unfold find_best_trgt_match in H. apply bind_ok in H as ([p|] & _ & H); [|discriminate].
  apply find_trgt_loop_sound in H; [|exact Hlt|discriminate].
  destruct H as (H1 & H2 & H3 & H4 & H5). unfold cand_sound, c_end. cbn. repeat split; auto; lia.
Qed.
Lemma cand_sound_trgt src src' trgt s n p : cand_sound src trgt (MTrgt s n p) -> cand_sound src' trgt (MTrgt s n p).
Proof. intro H. exact H. Qed.

(** ** Run state *)
Definition run_state (trgt : list Z) (cur run byte : Z) : Prop :=
  0 <= run /\ is_byte byte /\ (run <= 4 -> sub trgt (cur + 4 - run) run = rep byte run).

Lemma rep_snoc {A} (a : A) n : 0 <= n -> rep a n ++ [a] = rep a (n + 1).
Proof. intro H. change [a] with (rep a 1). now rewrite rep_app by lia. Qed.
Lemma sub_snoc {A} (l : list A) a n x : 0 <= a -> 0 <= n -> idx l (a + n) = Ok x -> sub l a (n + 1) = sub l a n ++ [x].
Proof.
  intros Ha Hn H. rewrite (sub_split l a (n + 1) n) by lia. f_equal. replace (n + 1 - n) with 1 by lia. now apply idx_sub1.
Qed.
Lemma idx_byte l i x : Forall is_byte l -> idx l i = Ok x -> is_byte x.
Proof. intros H E. apply idx_inv in E as [_ E]. rewrite Forall_forall in H. apply H. eapply nth_error_In, E. Qed.

Lemma initial_run_ok trgt : Forall is_byte trgt -> forall n pos run last run' byte', 0 <= run -> run <= pos -> is_byte last ->
  sub trgt (pos - run) run = rep last run ->
  initial_run n trgt pos run last = Ok (run', byte') ->
  0 <= run' /\ run' <= run + Z.of_nat n /\ is_byte byte' /\ sub trgt (pos + Z.of_nat n - run') run' = rep byte' run'.
Proof.
  intro Hb. induction n as [|n IH]; intros pos run last run' byte' Hr Hp Hl Hs H; cbn [initial_run] in H.
  - injection H as <- <-. replace (pos + Z.of_nat 0 - run) with (pos - run) by lia. repeat split; auto; try lia; apply Hl.
  - apply bind_ok in H as (c & Hc & H). pose proof (idx_byte _ _ _ Hb Hc) as Hcb.
    replace (pos + Z.of_nat (S n)) with (pos + 1 + Z.of_nat n) by lia.
    destruct (last =? c) eqn:E.
    + apply Z.eqb_eq in E. subst c. apply IH in H; try lia; auto.
      * destruct H as (A & B & C & D). repeat split; auto; try lia; apply C.
      * replace (pos + 1 - (run + 1)) with (pos - run) by lia. rewrite (sub_snoc trgt (pos - run) run last), Hs, rep_snoc by (try lia; now replace (pos - run + run) with pos by lia). reflexivity.
    + apply idx_inv in Hc as Hc'. apply IH in H; try lia; auto.
      * destruct H as (A & B & C & D). repeat split; auto; try lia; apply C.
      * replace (pos + 1 - 1) with pos by lia. now apply idx_sub1.
Qed.

(** ** The matchers' positions *)
Definition is_start (st : estate) : bool := match st with StartNewMatch => true | _ => false end.
Definition sm_rel (trgt : list Z) (cur : Z) (N : bool) (os : option src_matcher) : Prop :=
  match os with
  | None => True
  | Some s => sm_max s = Z.max 0 (zlen trgt - 9) /\ 0 <= sm_pos s /\
      if N then sm_pos s <= cur /\ sm_pos s <= sm_max s else sm_pos s = Z.min cur (sm_max s)
  end.
Definition tm_rel (trgt : list Z) (cur : Z) (N : bool) (ot : option trgt_matcher) : Prop :=
  match ot with
  | None => True
  | Some t => tm_max t = Z.max 0 (zlen trgt - 4) /\ 0 <= tm_pos t /\ if N then tm_pos t <= cur else tm_pos t = cur
  end.
(** What the source matcher's table operations leave alone. *)
Definition sm_same (s s' : src_matcher) : Prop := sm_pos s' = sm_pos s /\ sm_max s' = sm_max s /\ sm_step s' = sm_step s /\ sm_hash s' = sm_hash s.
Lemma sm_same_trans a b c : sm_same a b -> sm_same b c -> sm_same a c.
Proof. unfold sm_same. intuition congruence. Qed.
Lemma src_store_same m s h p s' : src_store m s h p = Ok s' -> sm_same s s'.
Proof.
  unfold src_store. intro H. apply bind_ok in H as (u & _ & H). apply bind_ok in H as ([t r] & _ & H). injection H as <-. repeat split.
Qed.
Lemma hash_steps_same m src lo : forall n s s', hash_steps n m s src lo = Ok s' -> sm_same s s'.
Proof.
  induction n as [|n IH]; intros s s' H; cbn [hash_steps] in H; [injection H as <-; repeat split|].
  apply bind_ok in H as (w & _ & H). apply bind_ok in H as (s1 & H1 & H). eapply sm_same_trans; [eapply src_store_same, H1|]. now apply IH.
Qed.
Lemma hash_roll_same m src lo : forall n s h s', hash_roll n m s src lo h = Ok s' -> sm_same s s'.
Proof.
  induction n as [|n IH]; intros s h s' H; cbn [hash_roll] in H; [injection H as <-; repeat split|].
  apply bind_ok in H as (o & _ & H). apply bind_ok in H as (w & _ & H). apply bind_ok in H as (s1 & H1 & H).
  eapply sm_same_trans; [|eapply IH, H]. destruct (_ mod _ =? 0); [eapply src_store_same, H1|injection H1 as <-; repeat split].
Qed.
Lemma add_start_same m s cur src s' : add_start_positions m s cur src = Ok s' -> sm_same s s'.
Proof.
  unfold add_start_positions. destruct (cur <? sm_next s); intro H; [injection H as <-; repeat split|].
  apply bind_ok in H as ([[lo hi]|] & _ & H); [|injection H as <-; repeat split].
  apply bind_ok in H as (u & _ & H). destruct (sm_step _ >=? 9).
  - apply hash_steps_same in H. exact H.
  - apply bind_ok in H as (w & _ & H). apply hash_roll_same in H. exact H.
Qed.

Lemma roll_large_bound trgt : forall n h p h', roll_large n trgt h p = Ok h' -> n = O \/ p + Z.of_nat n + 9 <= zlen trgt.
Proof.
  induction n as [|n IH]; intros h p h' H; [now left|right]. cbn [roll_large] in H. apply bind_ok in H as (o & _ & H).
  apply bind_ok in H as (w & Hw & H). apply idx_inv in Hw as [Hw _]. apply IH in H. lia.
Qed.
Lemma roll_small_bound trgt : forall n h p h', roll_small n trgt h p = Ok h' -> n = O \/ p + Z.of_nat n + 4 <= zlen trgt.
Proof.
  induction n as [|n IH]; intros h p h' H; [now left|right]. cbn [roll_small] in H. apply bind_ok in H as (o & _ & H).
  apply bind_ok in H as (w & Hw & H). apply idx_inv in Hw as [Hw _]. apply IH in H. lia.
Qed.
Lemma src_seek_rel m s src trgt cur s' : src_seek m s src trgt cur = Ok s' -> 0 <= cur ->
  sm_rel trgt cur true (Some s) -> sm_rel trgt cur false (Some s').
Proof.
  unfold src_seek. intros H Hc (Hm & Hp & Hle & Hle2). apply bind_ok in H as (s1 & H1 & H).
  assert (Hs : sm_same s s1) by (destruct (sm_next s <=? cur); [now apply add_start_same in H1|injection H1 as <-; repeat split]).
  destruct Hs as (S1 & S2 & _). rewrite S1, S2 in H. destruct (sm_pos s <? sm_max s) eqn:E.
  - apply bind_ok in H as (h & Hh & H). injection H as <-. unfold sm_rel. cbn [sm_set_fwd sm_pos sm_max]. split; [congruence|]. split; [lia|].
    destruct (sm_pos s + 9 >? cur).
    + apply roll_large_bound in Hh. rewrite S2. lia.
    + apply bind_ok in Hh as (w & Hw & _). apply slice_inv in Hw. rewrite S2. lia.
  - injection H as <-. unfold sm_rel. rewrite S1, S2. split; [exact Hm|]. lia.
Qed.
Lemma trgt_seek_rel t trgt cur t' : trgt_seek t trgt cur = Ok t' -> cur + 4 < zlen trgt ->
  tm_rel trgt cur true (Some t) -> tm_rel trgt cur false (Some t').
Proof.
  unfold trgt_seek. intros H Hc (Hm & Hp & Hle). replace (tm_pos t <? tm_max t) with true in H by lia.
  apply bind_ok in H as (h & _ & H). injection H as <-. cbn. repeat split; auto; lia.
Qed.
Lemma trgt_store_same t h p t' : trgt_store t h p = Ok t' -> tm_pos t' = tm_pos t /\ tm_max t' = tm_max t /\ tm_hash t' = tm_hash t.
Proof. unfold trgt_store. intro H. apply bind_ok in H as ([tb r] & _ & H). apply bind_ok in H as (ch & _ & H). injection H as <-. cbn. auto. Qed.

(** ** The invariant of the main loop *)
Record einv (src trgt : list Z) (mx : Z) (e : est) : Prop := mkInv {
  iv_cur : 0 <= e_cur e <= zlen trgt;
  iv_min : 4 <= e_min e;
  iv_byte : is_byte (e_byte e);
  iv_ops : cands_ok src trgt (e_ops e);
  iv_head : head_pos_le (e_ops e) (e_cur e);
  iv_mx : head_pos_le (e_ops e) mx;
  iv_sm : sm_rel trgt (e_cur e) (is_start (e_st e)) (e_src e);
  iv_tm : tm_rel trgt (e_cur e) (is_start (e_st e)) (e_trgt e);
  iv_st : match e_st e with
          | StartNewMatch => True
          | TryMatch => last_end (e_ops e) <= e_cur e + e_min e - 1 /\ run_state trgt (e_cur e) (e_run e) (e_byte e)
          | FoundMatch len => last_end (e_ops e) = e_cur e + len /\ 4 <= len /\ run_state trgt (e_cur e) (e_run e) (e_byte e)
          | MoveForwardOneByte => last_end (e_ops e) <= e_cur e + e_min e /\ run_state trgt (e_cur e) (e_run e) (e_byte e)
          end
}.

Lemma opt_map_rel {A} (f : A -> res A) (P Q : option A -> Prop) o o' : (Q None) -> (forall a b, P (Some a) -> f a = Ok b -> Q (Some b)) -> P o ->
  opt_map f o = Ok o' -> Q o'.
Proof.
  intros H0 Hs Hp H. destruct o as [a|]; cbn in H; [|injection H as <-; exact H0].
  apply bind_ok in H as (b & Hb & H). injection H as <-. eauto.
Qed.

Lemma start_new_match_inv m src trgt mx e e' : Forall is_byte trgt -> mx <= zlen trgt -> e_cur e + 4 < mx -> e_st e = StartNewMatch -> einv src trgt mx e ->
  start_new_match m src trgt e = Ok e' -> einv src trgt mx e'.
Proof.
  intros Hb Hmx Hc Est I H. destruct I as [I1 I2 I3 I4 I5 I6 I7 I8 _]. rewrite Est in *. cbn [is_start] in *. unfold start_new_match in H.
  apply bind_ok in H as ([run byte] & Hr & H). apply bind_ok in H as (sm & Hsm & H). apply bind_ok in H as (tm & Htm & H). injection H as <-.
  apply (initial_run_ok trgt Hb) in Hr; try lia; auto.
  destruct Hr as (R1 & R2 & R3 & R4).
  set (le := last_end (e_ops e)). set (mm := if le >? e_cur e then _ else 4).
  assert (4 <= mm /\ le <= e_cur e + mm - 1) by (unfold mm; destruct (le >? e_cur e) eqn:E; lia).
  constructor; cbn [e_cur e_min e_byte e_ops e_st e_src e_trgt e_run is_start]; auto; try lia.
  - eapply (opt_map_rel _ (sm_rel trgt (e_cur e) true) (sm_rel trgt (e_cur e) false)); [exact Logic.I| |exact I7|exact Hsm].
    intros a b Ha Eb. exact (src_seek_rel m a src trgt (e_cur e) b Eb ltac:(lia) Ha).
  - eapply (opt_map_rel _ (tm_rel trgt (e_cur e) true) (tm_rel trgt (e_cur e) false)); [exact Logic.I| |exact I8|exact Htm].
    intros a b Ha Eb. exact (trgt_seek_rel a trgt (e_cur e) b Eb ltac:(lia) Ha).
  - split; [lia|]. split; [lia|]. split; [exact R3|]. intros _. exact R4.
Qed.

Lemma try_run_ok m trgt e e' : 0 <= e_cur e -> run_state trgt (e_cur e) (e_run e) (e_byte e) -> try_run m trgt e = Ok e' ->
  e' = mkE (e_ops e) (e_cur e) (e_min e) (e_run e') (e_byte e) (e_st e) (e_src e) (e_trgt e) /\
  run_state trgt (e_cur e) (e_run e') (e_byte e) /\
  (e_run e = 4 -> 4 <= e_run e' /\ e_cur e + e_run e' <= zlen trgt /\ sub trgt (e_cur e) (e_run e') = rep (e_byte e) (e_run e') /\
                  e_run e' = run_count (e_byte e) (drop (e_cur e) trgt)) /\
  (e_run e <> 4 -> e' = e).
Proof.
  intros Hc (R1 & R2 & R3) H. unfold try_run in H. apply bind_ok in H as (rem & Hrem & H). apply slice_inv in Hrem as (S1 & S2 & ->).
  destruct (e_run e =? 4) eqn:E.
  - apply Z.eqb_eq in E. apply bind_ok in H as (rest & Hrest & H). apply slice_inv in Hrest as (T1 & T2 & ->). injection H as <-.
    cbn [e_ops e_cur e_min e_run e_byte e_st e_src e_trgt]. rewrite <- drop_is_sub in * by lia. set (L := drop (e_cur e) trgt) in *.
    assert (HL : zlen L = zlen trgt - e_cur e) by (unfold L; rewrite zlen_drop; lia).
    rewrite <- drop_is_sub by lia.
    pose proof (run_count_bound (e_byte e) (drop 4 L)) as Bd. pose proof (run_count_take (e_byte e) (drop 4 L)) as Tk.
    set (k := run_count (e_byte e) (drop 4 L)) in *. rewrite zlen_drop in Bd by lia.
    rewrite E in *. specialize (R3 ltac:(lia)). replace (e_cur e + 4 - 4) with (e_cur e) in R3 by lia.
    assert (Hsub : sub trgt (e_cur e) (4 + k) = rep (e_byte e) (4 + k)).
    { rewrite (sub_split trgt (e_cur e) (4 + k) 4) by lia. rewrite R3. replace (4 + k - 4) with k by lia.
      unfold sub. rewrite <- (drop_drop 4 (e_cur e) trgt) by lia. fold L. rewrite Tk. apply rep_app; lia. }
    split; [reflexivity|]. fold L. fold k. split; [|split].
    + split; [lia|]. split; [exact R2|]. intro Hk. assert (k = 0) by lia. rewrite H. replace (e_cur e + 4 - (4 + 0)) with (e_cur e) by lia. exact R3.
    + intros _. split; [lia|]. split; [lia|]. split; [exact Hsub|].
      assert (Et : take 4 L = rep (e_byte e) 4) by exact R3.
      assert (Ek : run_count (e_byte e) L = run_count (e_byte e) (rep (e_byte e) 4 ++ drop 4 L)) by (rewrite <- Et, take_drop; reflexivity).
      rewrite Ek, run_count_rep by lia. reflexivity.
    + intro Hn. exfalso. lia.
  - injection H as <-. split; [now destruct e|]. split; [split; auto|]. split; [lia|reflexivity].
Qed.

Lemma try_match_inv m src trgt mx e e' : Forall is_byte trgt -> zlen trgt < 2 ^ 64 -> zlen src < 2 ^ 64 -> mx <= zlen trgt -> e_cur e + 4 < mx ->
  e_st e = TryMatch -> einv src trgt mx e -> try_match m src trgt mx e = Ok e' -> einv src trgt mx e'.
Proof.
  intros Hb Hlt Hls Hmx Hc Est I H. destruct I as [I1 I2 I3 I4 I5 I6 I7 I8 I9]. rewrite Est in *. cbn [is_start] in *. destruct I9 as [I9 I10].
  unfold try_match in H. apply bind_ok in H as (e1 & H1 & H).
  destruct (try_run_ok m trgt e e1 ltac:(lia) I10 H1) as (E1 & R1 & R4 & _). clear H1.
  assert (F : forall ops len, cands_ok src trgt ops -> head_pos_le ops (e_cur e) -> last_end ops = e_cur e + len -> 4 <= len -> einv src trgt mx (found e1 ops len)).
  { intros ops len A1 A2 A3 A4. constructor; rewrite E1; cbn [found e_ops e_cur e_min e_run e_byte e_st e_src e_trgt is_start]; auto.
    destruct ops; [exact I|]. cbn in *. lia. }
  apply bind_ok in H as (r & Hr & H).
  assert (Er : forall e2, r = Some e2 -> einv src trgt mx e2).
  { intros e2 ->. unfold take_run in Hr. destruct (e_run e =? 4) eqn:E4; [|discriminate]. destruct (e_run e1 >=? e_min e1) eqn:Em; cbn [andb] in Hr; [|discriminate].
    apply bind_ok in Hr as (w & _ & Hr). apply bind_ok in Hr as (u & _ & Hr). injection Hr as <-.
    destruct (R4 ltac:(lia)) as (Q1 & Q2 & Q3 & _). rewrite E1 in Em |- *. cbn [e_min e_run e_byte e_cur e_ops] in *. rewrite <- E1.
    apply F; [|cbn; lia|reflexivity|lia]. apply cands_push; auto.
    - split; [cbn; lia|]. split; [cbn; lia|]. split; [unfold c_end; cbn; lia|]. split; [exact I3|exact Q3].
    - unfold c_end. cbn. lia. }
  destruct r as [e2|]; [injection H as <-; now apply Er|]. clear Er Hr.
  apply bind_ok in H as (r & Hr & H).
  assert (Er : forall e2, r = Some e2 -> einv src trgt mx e2).
  { intros e2 ->. unfold try_src in Hr. rewrite E1 in Hr. cbn [e_src e_cur e_min e_ops] in Hr. rewrite <- E1 in Hr. clear R4.
    destruct (e_src e) as [s|]; [|discriminate]. destruct (e_cur e + 9 <=? mx) eqn:E9; [|discriminate].
    apply bind_ok in Hr as (u & _ & Hr). apply bind_ok in Hr as (fm & Hf & Hr). destruct fm as [[[sp pre] post]|]; [|discriminate].
    destruct (post >=? e_min e) eqn:Em; [|discriminate].
    unfold find_best_src_match in Hf. apply bind_ok in Hf as ([p|] & _ & Hf); [|discriminate].
    apply bind_ok in Hf as ([[pre' post']|] & Hx & Hf); [|discriminate]. injection Hf as <- <- <-.
    apply extend_src_sound in Hx; auto. destruct I7 as (J1 & J2 & J3).
    replace (sm_pos s) with (e_cur e) in * by lia. set (sp := p * sm_step s) in *.
    destruct Hx as (X1 & X2 & X3 & X4 & X5 & X6 & X7 & X8).
    rewrite usub_ok in Hr by lia. cbn [bind] in Hr. apply bind_ok in Hr as (ops & Ho & Hr). rewrite usub_ok in Hr by lia. cbn [bind] in Hr.
    apply bind_ok in Hr as (u1 & _ & Hr). apply bind_ok in Hr as (u2 & _ & Hr). injection Hr as <-.
    assert (G : cands_ok src trgt ops /\ head_pos_le ops (e_cur e - pre') /\ last_end ops <= last_end (e_ops e)).
    { destruct (pre' >? 0) eqn:Ep; [eapply clear_ops_ok; eauto|]. injection Ho as <-. replace (e_cur e - pre') with (e_cur e) by lia. repeat split; auto; try lia; apply I4. }
    destruct G as (G1 & G2 & G3).
    apply F; [|cbn; lia|cbn; lia|lia]. apply cands_push; auto.
    - split; [cbn; lia|]. split; [cbn; lia|]. split; [unfold c_end; cbn; lia|]. split; [lia|]. split; [lia|exact X8].
    - unfold c_end. cbn. lia. }
  destruct r as [e2|]; [injection H as <-; now apply Er|]. clear Er Hr.
  apply bind_ok in H as (r & Hr & H).
  assert (Er : forall e2, r = Some e2 -> einv src trgt mx e2).
  { intros e2 ->. unfold try_trgt in Hr. rewrite E1 in Hr. cbn [e_trgt e_cur e_min e_ops] in Hr. rewrite <- E1 in Hr. clear R4.
    destruct (e_trgt e) as [t|]; [|discriminate]. destruct (e_cur e + 4 <=? mx) eqn:E9; [|discriminate].
    apply bind_ok in Hr as (u & _ & Hr). apply bind_ok in Hr as (fm & Hf & Hr). destruct fm as [[start len]|]; [|discriminate].
    destruct (len >=? e_min e) eqn:Em; [|discriminate].
    apply find_trgt_sound in Hf as [Hf _]; auto. destruct I8 as (J1 & J2 & J3). rewrite J3 in Hf.
    apply bind_ok in Hr as (u1 & _ & Hr). apply bind_ok in Hr as (u2 & _ & Hr). injection Hr as <-.
    apply F; [|cbn; lia|reflexivity|lia]. apply cands_push; auto. unfold c_end. cbn. lia. }
  destruct r as [e2|]; [injection H as <-; now apply Er|]. clear Er Hr.
  injection H as <-. clear F R4. rewrite E1. cbn [e_min e_ops e_cur e_run e_byte e_src e_trgt].
  set (mm := if e_min e >? 4 then e_min e - 1 else e_min e). assert (4 <= mm /\ e_min e - 1 <= mm) by (unfold mm; destruct (e_min e >? 4) eqn:E; lia).
  constructor; cbn [e_min e_ops e_cur e_run e_byte e_src e_trgt e_st is_start]; auto; try lia. split; [lia|exact R1].
Qed.

Lemma found_match_inv m src trgt lazy mx e e' len : zlen trgt < 2 ^ 64 -> mx <= zlen trgt -> e_cur e + 4 < mx ->
  e_st e = FoundMatch len -> einv src trgt mx e -> found_match m lazy mx e len = Ok e' -> einv src trgt mx e'.
Proof.
  intros Hlt Hmx Hc Est I H. destruct I as [I1 I2 I3 I4 I5 I6 I7 I8 I9]. rewrite Est in *. cbn [is_start] in *. destruct I9 as (I9 & I10 & I11).
  unfold found_match in H. apply bind_ok in H as (last & _ & H). pose proof (last_end_le src trgt (e_ops e) I4) as Hle.
  destruct (_ && _ && _); injection H as <-; constructor; cbn [e_min e_ops e_cur e_run e_byte e_src e_trgt e_st is_start]; auto; try lia.
  - split; [lia|exact I11].
  - destruct (e_ops e); [exact I|]. cbn in *. lia.
  - unfold sm_rel in *. destruct (e_src e) as [s|]; [|exact I]. lia.
  - unfold tm_rel in *. destruct (e_trgt e) as [t|]; [|exact I]. lia.
Qed.

Lemma move_forward_inv src trgt mx e e' : Forall is_byte trgt -> mx <= zlen trgt -> e_cur e + 4 < mx ->
  e_st e = MoveForwardOneByte -> einv src trgt mx e -> move_forward trgt e = Ok e' -> einv src trgt mx e'.
Proof.
  intros Hb Hmx Hc Est I H. destruct I as [I1 I2 I3 I4 I5 I6 I7 I8 I9]. rewrite Est in *. cbn [is_start] in *. destruct I9 as (I9 & R1 & R2 & R3).
  unfold move_forward in H. apply bind_ok in H as (c & Hcx & H). apply bind_ok in H as (tm & Htm & H). apply bind_ok in H as (sm & Hsm & H).
  injection H as <-. constructor; cbn [e_min e_ops e_cur e_run e_byte e_src e_trgt e_st is_start]; auto; try lia.
  - exact (idx_byte _ _ _ Hb Hcx).
  - destruct (e_ops e); [exact I|]. cbn in *. lia.
  - eapply (opt_map_rel _ (sm_rel trgt (e_cur e) false) (sm_rel trgt (e_cur e + 1) false)); [exact I| |exact I7|exact Hsm].
    intros s s' (A & B & C) E. unfold src_forward in E. destruct (sm_pos s <? sm_max s) eqn:Ep.
    + apply bind_ok in E as (o & _ & E). apply bind_ok in E as (n & _ & E). injection E as <-. cbn. split; [exact A|]. lia.
    + injection E as <-. split; [exact A|]. lia.
  - eapply (opt_map_rel _ (tm_rel trgt (e_cur e) false) (tm_rel trgt (e_cur e + 1) false)); [exact I| |exact I8|exact Htm].
    intros t t' (A & B & C) E. unfold trgt_forward in E. apply bind_ok in E as (t1 & Et & E). apply trgt_store_same in Et as (T1 & T2 & _).
    rewrite T1, T2 in E. replace (tm_pos t <? tm_max t) with true in E by lia.
    apply bind_ok in E as (o & _ & E). apply bind_ok in E as (n & _ & E). injection E as <-. cbn. split; [congruence|]. lia.
  - split; [lia|]. destruct (e_byte e =? c) eqn:Ec.
    + apply Z.eqb_eq in Ec. subst c. split; [lia|]. split; [exact R2|]. intro Hr.
      replace (e_cur e + 1 + 4 - (e_run e + 1)) with (e_cur e + 4 - e_run e) by lia.
      rewrite (sub_snoc trgt (e_cur e + 4 - e_run e) (e_run e) (e_byte e)), R3, rep_snoc; try lia; [reflexivity|].
      now replace (e_cur e + 4 - e_run e + e_run e) with (e_cur e + 4) by lia.
    + split; [lia|]. split; [exact (idx_byte _ _ _ Hb Hcx)|]. intros _. replace (e_cur e + 1 + 4 - 1) with (e_cur e + 4) by lia. now apply idx_sub1.
Qed.

Lemma estep_inv m src trgt lazy mx e e' : Forall is_byte trgt -> zlen trgt < 2 ^ 64 -> zlen src < 2 ^ 64 -> mx <= zlen trgt -> e_cur e + 4 < mx ->
  einv src trgt mx e -> estep m src trgt lazy mx e = Ok e' -> einv src trgt mx e'.
Proof.
  intros Hb Hlt Hls Hmx Hc I H. unfold estep in H. destruct (e_st e) eqn:Est.
  - eapply start_new_match_inv; eauto.
  - eapply try_match_inv; eauto.
  - eapply found_match_inv; eauto.
  - eapply move_forward_inv; eauto.
Qed.
Lemma eloop_inv m src trgt lazy mx : Forall is_byte trgt -> zlen trgt < 2 ^ 64 -> zlen src < 2 ^ 64 -> mx <= zlen trgt -> forall fuel e e',
  einv src trgt mx e -> eloop fuel m src trgt lazy mx e = Ok e' -> einv src trgt mx e'.
Proof.
  intros Hb Hlt Hls Hmx. induction fuel as [|k IH]; intros e e' I H; cbn [eloop] in H; destruct (e_cur e + 4 >=? mx) eqn:E; try discriminate;
    try (injection H as <-; exact I).
  apply bind_ok in H as (e1 & H1 & H). eapply IH; [|exact H]. eapply estep_inv; eauto. lia.
Qed.

(** ** The whole inner encoder *)
Lemma starts_with_eq l p : starts_with l p = true -> zlen p <= zlen l -> sub l 0 (zlen p) = p.
Proof. unfold starts_with. intros H _. apply list_eqb_eq in H. now rewrite <- take_is_sub. Qed.
Lemma naive_tests_ok src trgt t ops cur mx : naive_tests t src trgt = (ops, cur, mx) ->
  cands_ok src trgt ops /\ 0 <= cur <= zlen trgt /\ mx <= zlen trgt /\ 0 <= mx /\ last_end ops = cur /\ head_pos_le ops 0 /\
  (cur = 0 \/ cur = zlen src /\ sub trgt 0 cur = src) /\
  (mx < zlen trgt -> mx + zlen src = zlen trgt /\ cand_sound src trgt (MSrc 0 (zlen src) mx)).
Proof.
  pose proof (zlen_nonneg src) as Hs. pose proof (zlen_nonneg trgt) as Ht.
  unfold naive_tests. set (none := ([], 0, zlen trgt)).
  assert (G0 : forall o c x, none = (o, c, x) -> cands_ok src trgt o /\ 0 <= c <= zlen trgt /\ x <= zlen trgt /\ 0 <= x /\ last_end o = c /\ head_pos_le o 0 /\
     (c = 0 \/ c = zlen src /\ sub trgt 0 c = src) /\ (x < zlen trgt -> x + zlen src = zlen trgt /\ cand_sound src trgt (MSrc 0 (zlen src) x))).
  { intros o c x H. injection H as <- <- <-. split; [split; constructor|]. repeat split; auto; lia. }
  destruct (zlen trgt >? zlen src) eqn:El; [|apply G0].
  assert (G1 : forall o c x, naive_start src trgt = Some (o, c, x) -> cands_ok src trgt o /\ 0 <= c <= zlen trgt /\ x <= zlen trgt /\ 0 <= x /\ last_end o = c /\ head_pos_le o 0 /\
     (c = 0 \/ c = zlen src /\ sub trgt 0 c = src) /\ (x < zlen trgt -> x + zlen src = zlen trgt /\ cand_sound src trgt (MSrc 0 (zlen src) x))).
  { intros o c x H. unfold naive_start in H. destruct (starts_with trgt src) eqn:E; [|discriminate]. injection H as <- <- <-.
    apply starts_with_eq in E; [|lia]. cbn [last_end c_pos c_len head_pos_le].
    split; [split; [|exact I]|repeat split; auto; lia]. constructor; [|constructor].
    split; [cbn; lia|]. split; [cbn; lia|]. split; [unfold c_end; cbn; lia|]. split; [lia|]. split; [lia|]. rewrite E. symmetry. now apply sub_all. }
  assert (G2 : forall o c x, naive_end src trgt = Some (o, c, x) -> cands_ok src trgt o /\ 0 <= c <= zlen trgt /\ x <= zlen trgt /\ 0 <= x /\ last_end o = c /\ head_pos_le o 0 /\
     (c = 0 \/ c = zlen src /\ sub trgt 0 c = src) /\ (x < zlen trgt -> x + zlen src = zlen trgt /\ cand_sound src trgt (MSrc 0 (zlen src) x))).
  { intros o c x H. unfold naive_end in H. destruct (ends_with trgt src) eqn:E; [|discriminate]. injection H as <- <- <-.
    unfold ends_with in E. apply andb_true_iff in E as [E1 E2]. apply list_eqb_eq in E2.
    split; [split; constructor|]. split; [lia|]. split; [lia|]. split; [lia|]. split; [reflexivity|]. split; [exact I|]. split; [now left|]. intros _. split; [lia|].
    split; [cbn; lia|]. split; [cbn; lia|]. split; [unfold c_end; cbn; lia|]. split; [lia|]. split; [lia|].
    unfold sub. rewrite E2, drop_0 by lia. reflexivity. }
  destruct t as [[]|]; intro H; [..|now apply G0].
  - destruct (naive_end src trgt) as [[[o c] x]|]; [injection H as -> -> ->; now apply G2|now apply G0].
  - destruct (naive_start src trgt) as [[[o c] x]|]; [injection H as -> -> ->; now apply G1|now apply G0].
  - destruct (naive_end src trgt) as [[[o c] x]|]; cbn [or_else] in H; [injection H as -> -> ->; now apply G2|].
    destruct (naive_start src trgt) as [[[o c] x]|]; [injection H as -> -> ->; now apply G1|now apply G0].
  - destruct (naive_start src trgt) as [[[o c] x]|]; cbn [or_else] in H; [injection H as -> -> ->; now apply G1|].
    destruct (naive_end src trgt) as [[[o c] x]|]; [injection H as -> -> ->; now apply G2|now apply G0].
Qed.

Lemma trgt_prefill_same trgt : forall n t h p t', trgt_prefill n t trgt h p = Ok t' -> tm_pos t' = tm_pos t /\ tm_max t' = tm_max t.
Proof.
  induction n as [|n IH]; intros t h p t' H; cbn [trgt_prefill] in H; [injection H as <-; auto|].
  apply bind_ok in H as (o & _ & H). apply bind_ok in H as (w & _ & H). apply bind_ok in H as (t1 & H1 & H).
  apply trgt_store_same in H1 as (A & B & _). apply IH in H as [C D]. split; congruence.
Qed.
Lemma trgt_build_rel m c trgt start t : 0 <= start -> trgt_build m c trgt start = Ok t -> tm_rel trgt start true (Some t).
Proof.
  intros Hs H. unfold trgt_build in H. apply bind_ok in H as (eff & _ & H). apply bind_ok in H as (cap & _ & H). apply bind_ok in H as (p & _ & H).
  apply bind_ok in H as (tb & _ & H). apply bind_ok in H as (ch & _ & H). destruct (start >? 0).
  - apply bind_ok in H as (w & _ & H). apply bind_ok in H as (t1 & H1 & H). apply trgt_store_same in H1 as (A & B & _).
    apply trgt_prefill_same in H as [C D]. cbn in A, B. unfold tm_rel. rewrite C, D, A, B. repeat split; lia.
  - injection H as <-. cbn. repeat split; lia.
Qed.
Lemma src_build_rel m c src trgt start s : 0 <= start -> src_build m c src start trgt = Ok s -> sm_rel trgt start true (Some s).
Proof.
  intros Hs H. unfold src_build in H. apply bind_ok in H as (win & _ & H). apply bind_ok in H as ([hash pos] & Hp & H). apply bind_ok in H as (p & _ & H).
  apply bind_ok in H as (tb & _ & H). apply add_start_same in H as (A & B & _). cbn in A, B. unfold sm_rel. rewrite A, B.
  destruct (start <? Z.max 0 (zlen trgt - 9)) eqn:E.
  - apply bind_ok in Hp as (w & _ & Hp). injection Hp as _ <-. repeat split; lia.
  - injection Hp as _ <-. repeat split; lia.
Qed.

Lemma encode_inner_sound m c src trgt cs : Forall is_byte trgt -> zlen trgt < 2 ^ 64 -> zlen src < 2 ^ 64 ->
  encode_inner m c src trgt = Ok cs -> Forall (cand_sound src trgt) cs /\ cands_ordered cs.
Proof.
  intros Hb Hlt Hls H.
  assert (G0 : forall cs, @Ok (list cand) [] = Ok cs -> Forall (cand_sound src trgt) cs /\ cands_ordered cs).
  { intros cs0 E. injection E as <-. split; constructor. }
  unfold encode_inner in H.
  assert (H' : (if (zlen src =? 0) && match ic_trgt c with None => true | Some _ => false end then Ok [] else
      if zlen trgt =? 0 then Ok [] else
      let '(ops, cur, mx) := naive_tests (ic_naive c) src trgt in
      do tm <- match ic_trgt c with None => Ok None | Some tc => do t <- trgt_build m tc trgt cur; Ok (Some t) end;
      do sm <- match ic_src c with None => Ok None | Some sc => do s <- src_build m sc src cur trgt; Ok (Some s) end;
      let lazy := match ic_lazy c with Some n => n | None => 90 end in
      let e := mkE ops cur 4 0 0 StartNewMatch sm tm in
      do e <- eloop (4 * length trgt + 4) m src trgt lazy mx e;
      do _ <- assert_ (e_cur e <=? zlen trgt);
      let ops := rev (e_ops e) in
      Ok (if mx <? zlen trgt then ops ++ [MSrc 0 (zlen src) mx] else ops)) = Ok cs \/ @Ok (list cand) [] = Ok cs).
  { destruct (ic_src c), (ic_trgt c); auto. }
  clear H. destruct H' as [H|H]; [|now apply G0].
  destruct (_ && _); [now apply G0|]. destruct (zlen trgt =? 0); [now apply G0|].
  destruct (naive_tests (ic_naive c) src trgt) as [[ops cur] mx] eqn:En.
  destruct (naive_tests_ok src trgt _ _ _ _ En) as (N1 & N2 & N3 & N4 & N5 & N6 & _ & N7).
  apply bind_ok in H as (tm & Htm & H). apply bind_ok in H as (sm & Hsm & H). cbv zeta in H.
  apply bind_ok in H as (e & He & H). apply bind_ok in H as (u & _ & H).
  assert (I0 : einv src trgt mx (mkE ops cur 4 0 0 StartNewMatch sm tm)).
  { constructor; cbn [e_cur e_min e_byte e_ops e_st e_src e_trgt is_start]; auto; try lia.
    - unfold is_byte. lia.
    - destruct ops; [exact I|]. cbn in *. lia.
    - destruct ops; [exact I|]. cbn in *. lia.
    - destruct (ic_src c) as [sc|]; [|injection Hsm as <-; exact I]. apply bind_ok in Hsm as (s & Hs & Hsm). injection Hsm as <-.
      eapply src_build_rel, Hs. lia.
    - destruct (ic_trgt c) as [tc|]; [|injection Htm as <-; exact I]. apply bind_ok in Htm as (s & Hs & Htm). injection Htm as <-.
      eapply trgt_build_rel, Hs. lia. }
  pose proof (eloop_inv m src trgt _ mx Hb Hlt Hls N3 _ _ _ I0 He) as I1. destruct I1 as [_ _ _ [J1 J2] _ J3 _ _ _].
  assert (Js : Forall (cand_sound src trgt) (rev (e_ops e))) by now apply Forall_rev.
  assert (Jo : cands_ordered (rev (e_ops e))) by now apply rordered_rev.
  destruct (mx <? zlen trgt) eqn:Em; injection H as <-; [|auto].
  destruct (N7 ltac:(lia)) as [M1 M2]. split.
  - apply Forall_app. split; [exact Js|]. now constructor.
  - apply ordered_snoc; [exact Jo|]. intros d Hd. apply in_rev in Hd. split.
    + cbn. destruct (e_ops e) as [|x l]; [easy|]. cbn in J3. destruct Hd as [<-|Hd]; [exact J3|]. destruct (rordered_head_max l x J2 d Hd). lia.
    + rewrite Forall_forall in J1. destruct (J1 d Hd) as (_ & _ & G & _). unfold c_end in *. cbn. lia.
Qed.
