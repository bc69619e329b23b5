(** Totality of the inner encoder (encoder.rs): no index out of bounds, no failing assertion, no endless loop. *)
From Verif Require Import Base Spec SpecEnc MHasher MHashmap MTrgtMatcher MSrcMatcher MEncInner MEncode SpecApi PBase PHashmap PEncInner.
Ltac Zify.zify_post_hook ::= idtac.
Arguments Z.mul : simpl never.
Arguments Z.pow : simpl never.
Arguments Z.add : simpl never.
Arguments Z.sub : simpl never.
Arguments Z.modulo : simpl never.
Arguments Z.div : simpl never.

(** ** Matches are right-maximal *)
Lemma lcp_max a : forall b, lcp a b = zlen a \/ lcp a b = zlen b \/ idx a (lcp a b) <> idx b (lcp a b).
Proof.
  induction a as [|x a IH]; intro b; cbn [lcp]; [left; reflexivity|]. destruct b as [|y b]; [right; left; reflexivity|].
  destruct (x =? y) eqn:E.
  - pose proof (lcp_bound a b). rewrite !zlen_cons. destruct (IH b) as [->|[H1|H1]]; [auto|right; left; lia|]. right; right.
    unfold idx in *. replace (1 + lcp a b <? 0) with false by lia. replace (lcp a b <? 0) with false in H1 by lia.
    replace (Z.to_nat (1 + lcp a b)) with (S (Z.to_nat (lcp a b))) by lia. exact H1.
  - right; right. unfold idx. change (0 <? 0) with false. cbn. intros [= Exy]. lia.
Qed.
Lemma lcp_sub_max (x y : list Z) a b n : 0 <= a -> 0 <= b -> 0 <= n -> a + n <= zlen x -> b + n <= zlen y ->
  let k := lcp (sub x a n) (sub y b n) in k = n \/ idx x (a + k) <> idx y (b + k).
Proof.
  intros Ha Hb Hn Hx Hy k. pose proof (lcp_max (sub x a n) (sub y b n)) as H. fold k in H.
  pose proof (lcp_bound (sub x a n) (sub y b n)) as Hk. fold k in Hk. rewrite !zlen_sub in * by lia.
  destruct H as [H|[H|H]]; auto. destruct (Z.eq_dec k n) as [|Hne]; [now left|right]. rewrite !idx_sub in H by lia. exact H.
Qed.
Lemma run_count_max b l : run_count b l = zlen l \/ idx l (run_count b l) <> Ok b.
Proof.
  induction l as [|x l IH]; cbn [run_count]; [now left|]. destruct (x =? b) eqn:E.
  - pose proof (run_count_bound b l). rewrite zlen_cons. destruct IH as [->|H1]; [now left|right]. unfold idx in *.
    replace (1 + run_count b l <? 0) with false by lia. replace (run_count b l <? 0) with false in H1 by lia.
    replace (Z.to_nat (1 + run_count b l)) with (S (Z.to_nat (run_count b l))) by lia. exact H1.
  - right. unfold idx. change (0 <? 0) with false. cbn. intros [= Exy]. lia.
Qed.
Lemma extend_src_maximal m src ss trgt ts pre post : extend_src_match m src ss trgt ts = Ok (Some (pre, post)) -> zlen src < 2 ^ 64 -> zlen trgt < 2 ^ 64 ->
  ts + 9 + post = zlen trgt \/ ss + 9 + post = zlen src \/ idx src (ss + 9 + post) <> idx trgt (ts + 9 + post).
Proof.
  unfold extend_src_match. intros H Hls Hlt. apply bind_ok in H as (a & Ha & H). apply bind_ok in H as (b & Hb & H).
  apply slice_inv in Ha as (A1 & A2 & ->). apply slice_inv in Hb as (B1 & B2 & ->).
  destruct (list_eqb _ _); cbn [negb] in H; [|discriminate]. rewrite !usub_ok in H by lia. cbn [bind] in H. injection H as _ <-.
  destruct (lcp_sub_max src trgt (ss + 9) (ts + 9) (Z.min (zlen src - (ss + 9)) (zlen trgt - (ts + 9)))) as [E|E]; try lia. auto.
Qed.
Lemma find_trgt_loop_maximal m t trgt : zlen trgt < 2 ^ 64 -> forall fuel once last chain best bl s n,
  (forall s n, best = Some (s, n) -> right_maximal [] trgt (MTrgt s n (tm_pos t))) ->
  find_trgt_loop fuel m t trgt once last chain best bl = Ok (Some (s, n)) -> right_maximal [] trgt (MTrgt s n (tm_pos t)).
Proof.
  intro Hlt. induction fuel as [|k IH]; intros once last chain best bl s n Hbest H; cbn [find_trgt_loop] in H; [discriminate|].
  destruct (chain =? 0); [injection H as H; now apply Hbest|].
  apply bind_ok in H as (nxt & _ & H). destruct nxt as [start|]; [|injection H as H; now apply Hbest].
  destruct (start + 4 <? tm_pos t) eqn:E1; cbn [negb] in H; [|now apply IH in H].
  apply bind_ok in H as (a & Ha & H). apply bind_ok in H as (b & Hb & H).
  apply slice_inv in Ha as (A1 & A2 & ->). apply slice_inv in Hb as (B1 & B2 & ->).
  destruct (list_eqb _ _); cbn [negb] in H; [|now apply IH in H].
  rewrite !usub_ok in H by lia. cbn [bind] in H.
  set (r := Z.min (tm_pos t - (start + 4)) (zlen trgt - (tm_pos t + 4))) in *.
  pose proof (lcp_sub_max trgt trgt (start + 4) (tm_pos t + 4) r ltac:(lia) ltac:(lia) ltac:(lia) ltac:(lia) ltac:(lia)) as L. cbv zeta in L.
  set (k' := lcp (sub trgt (start + 4) r) (sub trgt (tm_pos t + 4) r)) in *.
  assert (Hnew : right_maximal [] trgt (MTrgt start (k' + 4) (tm_pos t))).
  { unfold right_maximal, c_end. cbn [c_pos c_len]. replace (start + (k' + 4)) with (start + 4 + k') by lia.
    replace (tm_pos t + (k' + 4)) with (tm_pos t + 4 + k') by lia. destruct L as [L|L]; [|auto]. lia. }
  destruct (k' + 4 >? bl).
  - destruct (k' + 4 >=? tm_early t).
    + injection H as <- <-. exact Hnew.
    + apply IH in H; [exact H|]. intros ? ? [= <- <-]. exact Hnew.
  - apply IH in H; auto.
Qed.
Lemma find_trgt_maximal m t trgt mm s n : zlen trgt < 2 ^ 64 -> find_best_trgt_match m t trgt mm = Ok (Some (s, n)) -> forall src, right_maximal src trgt (MTrgt s n (tm_pos t)).
Proof.
  intros Hlt H src. unfold find_best_trgt_match in H. apply bind_ok in H as ([p|] & _ & H); [|discriminate].
  apply find_trgt_loop_maximal in H; [exact H|exact Hlt|discriminate].
Qed.

(** ** Checksums are machine integers *)
Lemma fold_left_inv {A B} (P : A -> Prop) (f : A -> B -> A) l : (forall a b, P (f a b)) -> forall a, P a -> P (fold_left f l a).
Proof. intro H. induction l as [|b l IH]; intros a Ha; [exact Ha|]. cbn [fold_left]. apply IH, H. Qed.
Lemma large_range data : 0 <= calculate_large_checksum data < 2 ^ 64.
Proof. unfold calculate_large_checksum. apply (fold_left_inv (fun x => 0 <= x < 2 ^ 64)); [intros; apply to_u64_range|lia]. Qed.
Lemma small_range data : 0 <= calculate_small_checksum data < 2 ^ 32.
Proof. unfold calculate_small_checksum. apply (fold_left_inv (fun x => 0 <= x < 2 ^ 32)); [intros; apply to_u32_range|lia]. Qed.
Lemma roll_large_total trgt : forall n h p, 0 <= p -> (n = O \/ p + Z.of_nat n + 9 <= zlen trgt) -> 0 <= h < 2 ^ 64 ->
  exists h', roll_large n trgt h p = Ok h' /\ 0 <= h' < 2 ^ 64.
Proof.
  induction n as [|n IH]; intros h p Hp Hn Hh; cbn [roll_large]; [eauto|].
  destruct (idx_ok trgt p) as (o & -> & _); [lia|]. destruct (idx_ok trgt (p + 9)) as (w & -> & _); [lia|]. cbn [bind].
  apply IH; [lia|lia|apply to_u64_range].
Qed.
Lemma roll_small_total trgt : forall n h p, 0 <= p -> (n = O \/ p + Z.of_nat n + 4 <= zlen trgt) -> 0 <= h < 2 ^ 32 ->
  exists h', roll_small n trgt h p = Ok h' /\ 0 <= h' < 2 ^ 32.
Proof.
  induction n as [|n IH]; intros h p Hp Hn Hh; cbn [roll_small]; [eauto|].
  destruct (idx_ok trgt p) as (o & -> & _); [lia|]. destruct (idx_ok trgt (p + 4)) as (w & -> & _); [lia|]. cbn [bind].
  apply IH; [lia|lia|apply to_u32_range].
Qed.

(** ** Tables *)
Lemma table_get_total w t h : table_good w t -> 0 <= h < 2 ^ w -> table_get t h = Ok (bucket_get (t_buckets t (bucket_idx t h)) h).
Proof. intros Hg Hh. pose proof (bucket_idx_bound w t h Hg Hh). unfold table_get. replace (_ && _) with true by lia. reflexivity. Qed.
Lemma bucket_get_some b h p : bucket_get b h = Some p -> b_value b <> 0 /\ p = b_value b - 1.
Proof. unfold bucket_get. destruct (b_value b =? 0) eqn:E; [discriminate|]. destruct (b_hash b =? h); [|discriminate]. intros [= <-]. lia. Qed.
Lemma table_insert_total w t h p : table_good w t -> 0 <= h < 2 ^ w ->
  exists t', table_insert t h p = Ok (t', snd (bucket_set (t_buckets t (bucket_idx t h)) h p)) /\ table_good w t' /\
    t_buckets t' = upd (t_buckets t) (bucket_idx t h) (mkBucket h (p + 1)).
Proof.
  intros Hg Hh. pose proof (bucket_idx_bound w t h Hg Hh). unfold table_insert. replace (_ && _) with true by lia.
  pose proof (bucket_set_fst (t_buckets t (bucket_idx t h)) h p) as Hf.
  destruct (bucket_set (t_buckets t (bucket_idx t h)) h p) as [b r]. cbn [fst snd] in *. subst b.
  eexists. split; [reflexivity|]. split; [exact Hg|reflexivity].
Qed.

(** ** The chain of previous positions *)
Definition chain_ok (B : Z) (c : chain_list) : Prop :=
  (ch_cap c = 0 \/ exists k, 0 <= k /\ ch_cap c = 2 ^ k /\ ch_mask c = 2 ^ k - 1) /\
  forall i, b_value (ch_pos c i) <> 0 -> exists key, 0 <= b_value (ch_pos c i) - 1 < key /\ key < B /\ Z.land key (ch_mask c) = i.

Lemma land_mask x k : 0 <= k -> Z.land x (2 ^ k - 1) = x mod 2 ^ k.
Proof. intro H. replace (2 ^ k - 1) with (Z.ones k) by (rewrite Z.ones_equiv; lia). apply Z.land_ones, H. Qed.
Lemma congr_gap key last k : 0 <= k -> key mod 2 ^ k = last mod 2 ^ k -> last < key -> last + 2 ^ k <= key.
Proof.
  intros Hk E Hl. assert (Hp : 0 < 2 ^ k) by (apply Z.pow_pos_nonneg; lia).
  pose proof (Z.div_mod key (2 ^ k) ltac:(lia)) as D1. pose proof (Z.div_mod last (2 ^ k) ltac:(lia)) as D2. rewrite E in D1.
  assert (last / 2 ^ k < key / 2 ^ k) by nia. nia.
Qed.

Lemma chain_next_loop_total m c cur hash : chain_ok cur c -> cur < 2 ^ 64 -> forall fuel last, 0 <= last < Z.of_nat fuel ->
  exists r, chain_next_loop fuel m c last cur hash = Ok r /\ forall p, r = Some p -> 0 <= p < last.
Proof.
  intros [Hc Hb] Hcur. induction fuel as [|fuel IH]; intros last Hl; [lia|]. cbn [chain_next_loop].
  destruct (ch_cap c =? 0) eqn:E0; [eexists; split; [reflexivity|discriminate]|].
  destruct Hc as [Hc|(k & Hk & Hcap & Hmask)]; [lia|].
  assert (Hp : 0 < 2 ^ k) by (apply Z.pow_pos_nonneg; lia).
  assert (Ei : Z.land last (ch_mask c) = last mod 2 ^ k) by (rewrite Hmask; now apply land_mask).
  pose proof (Z.mod_pos_bound last (2 ^ k) Hp) as Hm.
  replace ((0 <=? Z.land last (ch_mask c)) && (Z.land last (ch_mask c) <? ch_cap c)) with true by (rewrite Ei, Hcap; lia). cbn [negb].
  set (b := ch_pos c (Z.land last (ch_mask c))).
  destruct (b_value b =? 0) eqn:Ev; [eexists; split; [reflexivity|discriminate]|].
  destruct (Hb (Z.land last (ch_mask c)) ltac:(fold b; lia)) as (key & K1 & K2 & K3). fold b in K1.
  destruct (b_value b - 1 >? last) eqn:Ep; [eexists; split; [reflexivity|discriminate]|].
  rewrite usub_ok by lia. cbn [bind].
  destruct (cur - (b_value b - 1) >=? ch_cap c) eqn:Ed; [eexists; split; [reflexivity|discriminate]|].
  assert (Hlt : b_value b - 1 < last).
  { destruct (Z.eq_dec (b_value b - 1) last) as [Heq|]; [|lia]. exfalso.
    rewrite Ei in K3. rewrite Hmask, land_mask in K3 by exact Hk. pose proof (congr_gap key last k Hk K3 ltac:(lia)). lia. }
  destruct (b_hash b =? hash).
  - eexists. split; [reflexivity|]. intros p [= <-]. lia.
  - destruct (IH (b_value b - 1) ltac:(lia)) as (r & -> & Hr). exists r. split; [reflexivity|]. intros p E. specialize (Hr p E). lia.
Qed.

(** ** The target matcher *)
Definition tm_tot (B : Z) (t : trgt_matcher) : Prop :=
  table_good 32 (tm_table t) /\ 0 <= tm_hash t < 2 ^ 32 /\ 0 <= tm_chain_check t /\ chain_ok B (tm_chain t) /\
  forall i, b_value (t_buckets (tm_table t) i) <> 0 -> 0 <= b_value (t_buckets (tm_table t) i) - 1 < B.

Lemma find_trgt_loop_total m t trgt : zlen trgt < 2 ^ 64 -> chain_ok (tm_pos t) (tm_chain t) -> tm_pos t + 4 <= zlen trgt ->
  forall fuel once last chain best bl, match once with Some p => 0 <= p < Z.of_nat fuel - 1 | None => 0 <= last < Z.of_nat fuel end ->
  exists r, find_trgt_loop fuel m t trgt once last chain best bl = Ok r.
Proof.
  intros Hlt Hc Hp. induction fuel as [|fuel IH]; intros once last chain best bl Hf; [destruct once; lia|]. cbn [find_trgt_loop].
  destruct (chain =? 0); [eauto|].
  assert (N : exists nxt, match once with Some p => Ok (Some p) | None => chain_next m (tm_chain t) last (tm_pos t) (tm_hash t) end = Ok nxt /\
              forall s, nxt = Some s -> 0 <= s < Z.of_nat fuel).
  { destruct once as [p|].
    - eexists. split; [reflexivity|]. intros s [= <-]. lia.
    - destruct (chain_next_loop_total m (tm_chain t) (tm_pos t) (tm_hash t) Hc ltac:(lia) (S (Z.to_nat last)) last ltac:(lia)) as (r & E & Hr).
      exists r. split; [exact E|]. intros s Es. specialize (Hr s Es). lia. }
  destruct N as (nxt & -> & Hn). cbn [bind]. destruct nxt as [start|]; [|eauto]. specialize (Hn start eq_refl).
  destruct (start + 4 <? tm_pos t) eqn:E4; cbn [negb]; [|apply IH; lia].
  rewrite !slice_ok by lia. cbn [bind]. destruct (list_eqb _ _); cbn [negb]; [|apply IH; lia].
  rewrite !usub_ok by lia. cbn [bind].
  destruct (_ >? bl); [destruct (_ >=? tm_early t); [eauto|]|]; apply IH; lia.
Qed.
Lemma find_trgt_total m t trgt mm : zlen trgt < 2 ^ 64 -> tm_tot (tm_pos t) t -> tm_pos t + 4 <= zlen trgt ->
  exists r, find_best_trgt_match m t trgt mm = Ok r.
Proof.
  intros Hlt (T1 & T2 & T3 & T4 & T5) Hp. unfold find_best_trgt_match. rewrite (table_get_total 32) by assumption. cbn [bind].
  destruct (bucket_get _ _) as [p|] eqn:E; [|eauto]. apply bucket_get_some in E as [E1 E2]. specialize (T5 _ E1).
  apply find_trgt_loop_total; auto.
  assert (0 <= tm_chain_check t / 4) by (apply Z.div_pos; lia). destruct (mm >? 4); lia.
Qed.

Lemma chain_ok_mono B B' c : B <= B' -> chain_ok B c -> chain_ok B' c.
Proof.
  intros H [H1 H2]. split; [exact H1|]. intros i Hi. destruct (H2 i Hi) as (key & K1 & K2 & K3). exists key. split; [exact K1|]. split; [lia|exact K3].
Qed.
Lemma tm_tot_mono B B' t : B <= B' -> tm_tot B t -> tm_tot B' t.
Proof.
  intros H (T1 & T2 & T3 & T4 & T5). repeat (split; [assumption|]). split; [eapply chain_ok_mono; eauto|]. intros i Hi. specialize (T5 i Hi). lia.
Qed.
Lemma chain_insert_total B c hash prev : chain_ok B c -> 0 <= prev < B ->
  exists c', chain_insert c hash B prev = Ok c' /\ chain_ok (B + 1) c'.
Proof.
  intros [Hc Hb] Hp. unfold chain_insert. destruct (ch_cap c =? 0) eqn:E0.
  - exists c. split; [reflexivity|]. apply (chain_ok_mono B); [lia|]. split; assumption.
  - destruct Hc as [Hc|(k & Hk & Hcap & Hmask)]; [lia|]. pose proof (Z.mod_pos_bound B (2 ^ k) ltac:(apply Z.pow_pos_nonneg; lia)).
    replace ((0 <=? Z.land B (ch_mask c)) && (Z.land B (ch_mask c) <? ch_cap c)) with true by (rewrite Hmask, land_mask, Hcap by exact Hk; lia).
    eexists. split; [reflexivity|]. split; [right; exists k; auto|]. cbn [ch_pos ch_mask]. intro i. unfold upd.
    destruct (i =? Z.land B (ch_mask c)) eqn:Ei.
    + intros _. rewrite bucket_set_fst. cbn [b_value]. exists B. apply Z.eqb_eq in Ei. repeat split; auto; lia.
    + intro Hi. destruct (Hb i Hi) as (key & K1 & K2 & K3). exists key. split; [exact K1|]. split; [lia|exact K3].
Qed.
Lemma bucket_set_old b h p : match snd (bucket_set b h p) with
  | SetNew => True | SetSame old => b_value b <> 0 /\ old = b_value b - 1 | SetEvicted _ old => b_value b <> 0 /\ old = b_value b - 1 end.
Proof. unfold bucket_set. destruct (b_value b =? 0) eqn:E; [exact I|]. destruct (b_hash b =? h); cbn; lia. Qed.
Lemma trgt_store_total B t h : tm_tot B t -> 0 <= B -> 0 <= h < 2 ^ 32 -> exists t', trgt_store t h B = Ok t' /\ tm_tot (B + 1) t'.
Proof.
  intros (T1 & T2 & T3 & T4 & T5) HB Hh. unfold trgt_store.
  destruct (table_insert_total 32 (tm_table t) h B T1 Hh) as (tb & -> & G1 & G2). cbn [bind].
  pose proof (bucket_set_old (t_buckets (tm_table t) (bucket_idx (tm_table t) h)) h B) as Ho.
  assert (Hbk : forall i, b_value (t_buckets tb i) <> 0 -> 0 <= b_value (t_buckets tb i) - 1 < B + 1).
  { intro i. rewrite G2. unfold upd. destruct (i =? _); [cbn [b_value]; lia|]. intro Hi. specialize (T5 i Hi). lia. }
  destruct (snd (bucket_set _ _ _)) as [|old|oh old]; cbn [bind].
  - eexists. split; [reflexivity|]. unfold tm_tot. cbn [tm_table tm_hash tm_chain_check tm_chain]. repeat (split; [assumption|]). split; [apply (chain_ok_mono B); [lia|exact T4]|exact Hbk].
  - destruct Ho as [O1 ->]. destruct (chain_insert_total B (tm_chain t) h (b_value (t_buckets (tm_table t) (bucket_idx (tm_table t) h)) - 1) T4 (T5 _ O1)) as (c' & -> & C).
    cbn [bind]. eexists. split; [reflexivity|]. unfold tm_tot. cbn [tm_table tm_hash tm_chain_check tm_chain]. auto.
  - destruct Ho as [O1 ->]. destruct (chain_insert_total B (tm_chain t) oh (b_value (t_buckets (tm_table t) (bucket_idx (tm_table t) h)) - 1) T4 (T5 _ O1)) as (c' & -> & C).
    cbn [bind]. eexists. split; [reflexivity|]. unfold tm_tot. cbn [tm_table tm_hash tm_chain_check tm_chain]. auto.
Qed.
Lemma tm_tot_fwd B t h p : tm_tot B t -> 0 <= h < 2 ^ 32 -> tm_tot B (tm_set_fwd t h p).
Proof. intros (T1 & T2 & T3 & T4 & T5) Hh. unfold tm_tot, tm_set_fwd. cbn [tm_table tm_hash tm_chain_check tm_chain]. auto. Qed.
Lemma trgt_seek_total t trgt cur : tm_tot cur t -> tm_rel trgt cur true (Some t) -> 0 <= cur -> cur + 4 < zlen trgt ->
  exists t', trgt_seek t trgt cur = Ok t' /\ tm_tot cur t'.
Proof.
  intros T (R1 & R2 & R3) Hc Hl. unfold trgt_seek. destruct (tm_pos t <? tm_max t); [|eauto].
  assert (E : exists h, (if tm_pos t + 4 >? cur then roll_small (Z.to_nat (cur - tm_pos t)) trgt (tm_hash t) (tm_pos t)
             else do w <- slice trgt cur (cur + 4); Ok (calculate_small_checksum w)) = Ok h /\ 0 <= h < 2 ^ 32).
  { destruct (_ >? cur).
    - apply roll_small_total; [lia| |apply T]. lia.
    - rewrite slice_ok by lia. cbn [bind]. eexists. split; [reflexivity|apply small_range]. }
  destruct E as (h & -> & Hh). cbn [bind]. eexists. split; [reflexivity|]. now apply tm_tot_fwd.
Qed.
Lemma trgt_forward_total t trgt cur : tm_tot cur t -> tm_rel trgt cur false (Some t) -> 0 <= cur -> cur + 4 < zlen trgt ->
  exists t', trgt_forward trgt cur t = Ok t' /\ tm_tot (cur + 1) t'.
Proof.
  intros T (R1 & R2 & R3) Hc Hl. unfold trgt_forward. destruct (trgt_store_total cur t (tm_hash t) T Hc ltac:(apply T)) as (t1 & -> & T1).
  cbn [bind]. destruct (tm_pos t1 <? tm_max t1); [|eauto].
  destruct (idx_ok trgt cur) as (o & -> & _); [lia|]. destruct (idx_ok trgt (cur + 4)) as (w & -> & _); [lia|]. cbn [bind].
  eexists. split; [reflexivity|]. apply tm_tot_fwd; [exact T1|apply to_u32_range].
Qed.

(** ** The source matcher *)
Definition sm_tot (src trgt : list Z) (s : src_matcher) : Prop :=
  table_good 64 (sm_table s) /\ 0 <= sm_hash s < 2 ^ 64 /\ 1 <= sm_step s /\
  (forall i, b_value (t_buckets (sm_table s) i) <> 0 ->
     0 <= (b_value (t_buckets (sm_table s) i) - 1) * sm_step s /\ (b_value (t_buckets (sm_table s) i) - 1) * sm_step s + 9 <= zlen src) /\
  sm_src_len s = zlen src /\ sm_trgt_len s = zlen trgt /\ 0 <= sm_half s /\ sm_max_end s = align (Z.max 0 (zlen src - 9)) (sm_step s) /\
  sm_win_end s = 0 /\ 0 <= sm_max_match s.

Lemma align_bounds p step : 1 <= step -> 0 <= p -> 0 <= align p step <= p /\ align p step mod step = 0 /\ p < align p step + step.
Proof.
  intros Hs Hp. unfold align. pose proof (Z.mod_pos_bound p step ltac:(lia)). pose proof (Z.mod_le p step ltac:(lia) ltac:(lia)).
  split; [lia|]. split; [|lia]. rewrite Zminus_mod_idemp_r, Z.sub_diag. apply Z.mod_0_l. lia.
Qed.
Lemma window_range_total m src trgt s cur : sm_tot src trgt s -> 0 <= cur -> (m = Debug -> cur * zlen src < 2 ^ 64) ->
  exists r, window_range m s cur = Ok r /\ forall lo hi, r = Some (lo, hi) -> 0 <= lo /\ lo mod sm_step s = 0 /\ 0 <= hi <= sm_max_end s.
Proof.
  intros (S1 & S2 & S3 & S4 & S5 & S6 & S7 & S8 & S9 & S10) Hc Hm. unfold window_range.
  pose proof (align_bounds (Z.max 0 (zlen src - 9)) (sm_step s) S3 ltac:(lia)) as A. rewrite <- S8 in A. pose proof (zlen_nonneg src).
  destruct (cur <? sm_half s).
  { eexists. split; [reflexivity|]. intros lo hi [= <- <-]. split; [lia|]. split; [apply Z.mod_0_l; lia|lia]. }
  destruct (sm_win_end s >=? sm_max_end s); [eexists; split; [reflexivity|discriminate]|].
  assert (P : exists prod, arith m to_u64 (cur * sm_src_len s) = Ok prod /\ 0 <= prod).
  { unfold arith. rewrite S5. destruct (to_u64 _ =? _) eqn:E.
    - eexists. split; [reflexivity|]. nia.
    - destruct m; [|eexists; split; [reflexivity|apply to_u64_range]]. rewrite to_u64_id in E; [lia|]. specialize (Hm eq_refl). nia. }
  destruct P as (prod & -> & Hprod). cbn [bind].
  assert (Hq : 0 <= prod / sm_trgt_len s).
  { rewrite S6. pose proof (zlen_nonneg trgt). destruct (Z.eq_dec (zlen trgt) 0) as [->|]; [rewrite Zdiv_0_r; lia|apply Z.div_pos; lia]. }
  assert (Hse : 0 <= Z.min (prod / sm_trgt_len s + sm_half s) (sm_max_end s) <= sm_max_end s) by (clear - A Hq S7; lia).
  pose proof (align_bounds _ (sm_step s) S3 (proj1 Hse)) as B.
  set (se := align (Z.min (prod / sm_trgt_len s + sm_half s) (sm_max_end s)) (sm_step s)) in *.
  destruct (_ || _); [eexists; split; [reflexivity|discriminate]|].
  eexists. split; [reflexivity|]. intros lo hi [= <- <-].
  assert (Hst : 0 <= Z.max (Z.max (sm_win_end s) (sm_max_match s)) (Z.max 0 (se - 2 * sm_half s))) by (clear; lia).
  pose proof (align_bounds _ (sm_step s) S3 Hst) as C. clearbody se. clear - B C Hse.
  split; [apply C|]. split; [apply C|]. destruct B as [[B1 B2] _]. split; [exact B1|]. eapply Z.le_trans; [exact B2|apply Hse].
Qed.

Lemma src_store_total m src trgt s h pos : sm_tot src trgt s -> 0 <= h < 2 ^ 64 -> 0 <= pos -> pos mod sm_step s = 0 -> pos + 9 <= zlen src ->
  exists s', src_store m s h pos = Ok s' /\ sm_tot src trgt s' /\ sm_step s' = sm_step s.
Proof.
  intros (S1 & S2 & S3 & S4 & S5 & S6 & S7 & S8 & S9 & S10) Hh Hp Hm Hl. unfold src_store.
  replace (pos mod sm_step s =? 0) with true by lia. replace (debug_assert_ m true) with (Ok tt) by (destruct m; reflexivity). cbn [bind].
  destruct (table_insert_total 64 (sm_table s) h (pos / sm_step s) S1 Hh) as (tb & -> & G1 & G2). cbn [bind].
  eexists. split; [reflexivity|]. split; [|reflexivity]. unfold sm_tot, sm_set_table.
  cbn [sm_step sm_hash sm_table sm_src_len sm_trgt_len sm_half sm_max_end sm_win_end sm_max_match].
  split; [exact G1|]. split; [exact S2|]. split; [exact S3|]. split; [|repeat (split; [assumption|]); assumption].
  intro i. rewrite G2. unfold upd. destruct (i =? _); [|apply S4]. cbn [b_value]. intros _.
  pose proof (Z.div_mod pos (sm_step s) ltac:(lia)). replace (pos / sm_step s + 1 - 1) with (pos / sm_step s) by lia. rewrite Z.mul_comm. lia.
Qed.
Lemma hash_steps_total m src trgt lo : forall n s, sm_tot src trgt s -> 0 <= lo -> lo mod sm_step s = 0 ->
  (forall k, (k < n)%nat -> lo + Z.of_nat k * sm_step s + 9 <= zlen src) -> exists s', hash_steps n m s src lo = Ok s' /\ sm_tot src trgt s'.
Proof.
  induction n as [|n IH]; intros s Hs Hlo Hm Hk; cbn [hash_steps]; [eauto|].
  pose proof (Hk n ltac:(lia)) as Hn. assert (S3 : 1 <= sm_step s) by apply Hs. assert (0 <= Z.of_nat n * sm_step s) by nia.
  rewrite slice_ok by lia. cbn [bind].
  destruct (src_store_total m src trgt s (calculate_large_checksum (sub src (lo + Z.of_nat n * sm_step s) (lo + Z.of_nat n * sm_step s + 9 - (lo + Z.of_nat n * sm_step s)))) (lo + Z.of_nat n * sm_step s) Hs) as (s1 & -> & T1 & T2);
    [apply large_range|lia| |lia|].
  { rewrite Z_mod_plus_full. exact Hm. }
  cbn [bind]. apply IH; rewrite ?T2; auto.
Qed.
Lemma hash_roll_total m src trgt lo : forall n s h, sm_tot src trgt s -> 0 <= lo -> 0 <= h < 2 ^ 64 ->
  (n = O \/ lo + Z.of_nat n + 9 <= zlen src) -> exists s', hash_roll n m s src lo h = Ok s' /\ sm_tot src trgt s'.
Proof.
  induction n as [|n IH]; intros s h Hs Hlo Hh Hk; cbn [hash_roll]; [eauto|].
  destruct (idx_ok src (lo + Z.of_nat n + 9)) as (o & -> & _); [lia|]. destruct (idx_ok src (lo + Z.of_nat n)) as (w & -> & _); [lia|]. cbn [bind].
  assert (E : exists s1, (if (lo + Z.of_nat n) mod sm_step s =? 0 then src_store m s (update_large_checksum_bwd h o w) (lo + Z.of_nat n) else Ok s) = Ok s1 /\ sm_tot src trgt s1).
  { destruct (_ =? 0) eqn:E; [|eauto]. destruct (src_store_total m src trgt s (update_large_checksum_bwd h o w) (lo + Z.of_nat n) Hs) as (s1 & A & B & _);
      [apply to_u64_range|lia|lia|lia|]. eauto. }
  destruct E as (s1 & -> & T1). cbn [bind]. apply IH; auto; [apply to_u64_range|lia].
Qed.
Lemma add_start_total m src trgt s cur : sm_tot src trgt s -> 0 <= cur -> (m = Debug -> cur * zlen src < 2 ^ 64) ->
  exists s', add_start_positions m s cur src = Ok s' /\ sm_tot src trgt s'.
Proof.
  intros Hs Hc Hm. unfold add_start_positions. destruct (cur <? sm_next s); [eauto|].
  destruct (window_range_total m src trgt s cur Hs Hc Hm) as (r & -> & Hr). cbn [bind]. destruct r as [[lo hi]|]; [|eauto].
  destruct (Hr lo hi eq_refl) as (R1 & R2 & R3). replace (lo mod sm_step s =? 0) with true by lia.
  replace (debug_assert_ m true) with (Ok tt) by (destruct m; reflexivity). cbn [bind].
  set (s0 := sm_set_next s _). assert (H0 : sm_tot src trgt s0) by exact Hs. assert (E0 : sm_step s0 = sm_step s) by reflexivity.
  assert (S3 : 1 <= sm_step s) by apply Hs. assert (S8 : sm_max_end s = align (Z.max 0 (zlen src - 9)) (sm_step s)) by apply Hs.
  pose proof (align_bounds (Z.max 0 (zlen src - 9)) (sm_step s) S3 ltac:(lia)) as A. rewrite <- S8 in A.
  pose proof (zlen_nonneg src) as Hz. rewrite E0. destruct (sm_step s >=? 9).
  - apply hash_steps_total; auto. intros k Hk. rewrite E0.
    assert (Hlt : Z.of_nat k < (hi - lo + sm_step s - 1) / sm_step s) by lia.
    pose proof (Z.mul_div_le (hi - lo + sm_step s - 1) (sm_step s) ltac:(lia)) as Hd.
    assert (lo + Z.of_nat k * sm_step s < hi) by nia. lia.
  - pose proof (align_bounds (Z.max 0 (hi - 9)) (sm_step s) S3 ltac:(lia)) as B.
    set (last := align (Z.max 0 (hi - 9)) (sm_step s)) in *. rewrite slice_ok by lia. cbn [bind].
    apply hash_roll_total; auto; [apply large_range|]. lia.
Qed.

Lemma sm_tot_fwd src trgt s h p : sm_tot src trgt s -> 0 <= h < 2 ^ 64 -> sm_tot src trgt (sm_set_fwd s h p).
Proof.
  intros (S1 & S2 & S3 & S4 & S5 & S6 & S7 & S8 & S9 & S10) Hh. unfold sm_tot, sm_set_fwd.
  cbn [sm_step sm_hash sm_table sm_src_len sm_trgt_len sm_half sm_max_end sm_win_end sm_max_match]. repeat (split; [assumption|]). assumption.
Qed.
Lemma src_seek_total m src trgt s cur : sm_tot src trgt s -> sm_rel trgt cur true (Some s) -> 0 <= cur -> (m = Debug -> cur * zlen src < 2 ^ 64) ->
  (sm_pos s < sm_max s -> cur + 9 <= zlen trgt) -> exists s', src_seek m s src trgt cur = Ok s' /\ sm_tot src trgt s'.
Proof.
  intros Hs (R1 & R2 & R3 & R4) Hc Hm Hj. unfold src_seek.
  assert (E : exists s1, (if sm_next s <=? cur then add_start_positions m s cur src else Ok s) = Ok s1 /\ sm_tot src trgt s1 /\ sm_pos s1 = sm_pos s /\ sm_max s1 = sm_max s).
  { destruct (sm_next s <=? cur); [|eauto]. destruct (add_start_total m src trgt s cur Hs Hc Hm) as (s1 & A & B). exists s1. split; [exact A|]. split; [exact B|].
    apply add_start_same in A as (C & D & _). auto. }
  destruct E as (s1 & -> & T & P1 & P2). cbn [bind]. rewrite P1, P2. destruct (sm_pos s <? sm_max s) eqn:Ep; [|eauto]. specialize (Hj ltac:(lia)).
  assert (E : exists h, (if sm_pos s + 9 >? cur then roll_large (Z.to_nat (cur - sm_pos s)) trgt (sm_hash s1) (sm_pos s)
             else do w <- slice trgt cur (cur + 9); Ok (calculate_large_checksum w)) = Ok h /\ 0 <= h < 2 ^ 64).
  { destruct (_ >? cur).
    - apply roll_large_total; [lia| |apply T]. lia.
    - rewrite slice_ok by lia. cbn [bind]. eexists. split; [reflexivity|apply large_range]. }
  destruct E as (h & -> & Hh). cbn [bind]. eexists. split; [reflexivity|]. now apply sm_tot_fwd.
Qed.
Lemma src_forward_total src trgt s cur : sm_tot src trgt s -> sm_rel trgt cur false (Some s) -> 0 <= cur ->
  exists s', src_forward trgt cur s = Ok s' /\ sm_tot src trgt s'.
Proof.
  intros Hs (R1 & R2 & R3) Hc. unfold src_forward. destruct (sm_pos s <? sm_max s) eqn:E; [|eauto].
  destruct (idx_ok trgt cur) as (o & -> & _); [lia|]. destruct (idx_ok trgt (cur + 9)) as (w & -> & _); [lia|]. cbn [bind].
  eexists. split; [reflexivity|]. apply sm_tot_fwd; [exact Hs|apply to_u64_range].
Qed.
Lemma find_src_total m src trgt s : zlen src < 2 ^ 64 -> zlen trgt < 2 ^ 64 -> sm_tot src trgt s -> 0 <= sm_pos s -> sm_pos s + 9 <= zlen trgt ->
  exists r, find_best_src_match m s src trgt = Ok r.
Proof.
  intros Hls Hlt (S1 & S2 & S3 & S4 & _) Hp Hl. unfold find_best_src_match. rewrite (table_get_total 64) by assumption. cbn [bind].
  destruct (bucket_get _ _) as [p|] eqn:E; [|eauto]. apply bucket_get_some in E as [E1 E2]. specialize (S4 _ E1). rewrite <- E2 in S4.
  unfold extend_src_match. rewrite !slice_ok by lia. cbn [bind]. destruct (list_eqb _ _); cbn [negb bind]; [|eauto].
  rewrite !usub_ok by lia. cbn [bind]. eauto.
Qed.

(** ** Building the matchers *)
Lemma shiftr1_range k : 0 <= k <= 63 -> 0 <= Z.shiftr (2 ^ k) 1 < 2 ^ 63.
Proof.
  intro H. assert (0 < 2 ^ k <= 2 ^ 63) by (split; [apply Z.pow_pos_nonneg; lia|apply Z.pow_le_mono_r; lia]).
  rewrite Z.shiftr_div_pow2 by lia. change (2 ^ 1) with 2. split; [apply Z.div_pos; lia|apply Z.div_lt_upper_bound; lia].
Qed.
Lemma shiftr1_pow k : 0 <= k -> Z.shiftr (2 ^ k) 1 = 0 \/ exists j, 0 <= j <= k /\ Z.shiftr (2 ^ k) 1 = 2 ^ j.
Proof.
  intro H. destruct (Z.eq_dec k 0) as [->|]; [left; reflexivity|]. right. exists (k - 1). split; [lia|].
  rewrite Z.shiftr_div_pow2 by lia. change (2 ^ 1) with 2. replace k with (Z.succ (k - 1)) at 1 by lia. rewrite Z.pow_succ_r by lia.
  rewrite Z.mul_comm. apply Z.div_mul. lia.
Qed.
Lemma chain_new_total cap : cap = 0 \/ (exists k, 0 <= k /\ cap = 2 ^ k) -> exists c, chain_new cap = Ok c /\ forall B, chain_ok B c.
Proof.
  intro H. unfold chain_new. destruct (cap =? 0) eqn:E.
  - eexists. split; [reflexivity|]. intro B. split; [left; reflexivity|]. intros i Hi. exfalso. apply Hi. reflexivity.
  - destruct H as [H|(k & Hk & ->)]; [lia|]. rewrite land_mask, Z.mod_same by (try lia; apply Z.pow_nonzero; lia).
    change (0 =? 0) with true. cbn [assert_ bind]. eexists. split; [reflexivity|]. intro B. split; [right; exists k; auto|]. intros i Hi. exfalso. apply Hi. reflexivity.
Qed.
Lemma trgt_build_total m c trgt : legal_trgt c -> zlen trgt < 2 ^ 62 -> exists t, trgt_build m c trgt 0 = Ok t /\ tm_tot 0 t.
Proof.
  intros [Hcc Hcap] Hl. pose proof (zlen_nonneg trgt) as Hz. unfold trgt_build. rewrite usub_ok by lia. cbn [bind]. rewrite Z.sub_0_r.
  set (eff := zlen trgt) in *. assert (He : 0 <= eff / 2 <= eff) by (split; [apply Z.div_pos; lia|apply Z.div_le_upper_bound; lia]).
  assert (C : exists cap, match tc_capacity c with Some n => Ok n | None => do p <- next_power_of_two m eff; Ok (Z.min DEFAULT_PREV_SIZE (Z.shiftr p 1)) end = Ok cap /\
              (cap = 0 \/ exists k, 0 <= k /\ cap = 2 ^ k)).
  { destruct (tc_capacity c) as [n|]; [eauto|]. destruct (next_pow2_ok m eff ltac:(lia)) as (k & -> & Hk & _). cbn [bind].
    eexists. split; [reflexivity|]. destruct (shiftr1_pow k ltac:(lia)) as [->|(j & Hj & ->)]; [left; reflexivity|]. right.
    destruct (Z.min_spec DEFAULT_PREV_SIZE (2 ^ j)) as [[_ ->]|[_ ->]]; [exists 18; split; [lia|reflexivity]|exists j; split; [lia|reflexivity]]. }
  destruct C as (cap & -> & Hc). cbn [bind].
  destruct (next_pow2_ok m (eff + eff / 2) ltac:(lia)) as (k & -> & Hk & _). cbn [bind]. pose proof (shiftr1_range k Hk) as Hsh.
  destruct (table_new_ok m (Z.min DEFAULT_TRGT_WIN_SIZE (Z.shiftr (2 ^ k) 1)) true) as (tb & -> & Htb & Hbk & _).
  { unfold DEFAULT_TRGT_WIN_SIZE. lia. }
  cbn [bind]. destruct (chain_new_total cap Hc) as (ch & -> & Hch). cbn [bind]. change (0 >? 0) with false.
  eexists. split; [reflexivity|]. unfold tm_tot. cbn [tm_table tm_hash tm_chain_check tm_chain].
  split; [exact Htb|]. split; [lia|]. split; [exact Hcc|]. split; [apply Hch|]. intros i Hi. exfalso. apply Hi. rewrite Hbk. reflexivity.
Qed.
Lemma src_build_total m c src trgt start : legal_src m c -> zlen src < 2 ^ 63 -> 0 <= start -> (m = Debug -> start * zlen src < 2 ^ 64) ->
  exists s, src_build m c src start trgt = Ok s /\ sm_tot src trgt s.
Proof.
  intros Hw Hl Hst Hm. pose proof (zlen_nonneg src) as Hz. unfold src_build.
  assert (W : exists win, match sc_win c with Some n => do p <- next_power_of_two m n; Ok (Z.max p MIN_SRC_WIN_SIZE) | None => Ok DEFAULT_SRC_WIN_SIZE end = Ok win /\ 0 <= win).
  { unfold legal_src in Hw. destruct (sc_win c) as [n|]; [|eexists; split; [reflexivity|unfold DEFAULT_SRC_WIN_SIZE; lia]].
    assert (exists p, next_power_of_two m n = Ok p) as (p & ->).
    { destruct m; [destruct (next_pow2_ok Debug n (Hw eq_refl)) as (k & -> & _); eauto|]. unfold next_power_of_two.
      destruct (n <=? 1); [eauto|]. destruct (n >? 2 ^ 63); eauto. }
    cbn [bind]. eexists. split; [reflexivity|]. unfold MIN_SRC_WIN_SIZE. lia. }
  destruct W as (win & -> & Hwin). cbn [bind].
  set (step := Z.max (sc_step c) 1). assert (Hs1 : 1 <= step) by (unfold step; lia).
  assert (Hp : exists hash pos, (if start <? Z.max 0 (zlen trgt - 9) then do w <- slice trgt start (start + 9); Ok (calculate_large_checksum w, start)
                     else Ok (0, Z.max 0 (zlen trgt - 9))) = Ok (hash, pos) /\ 0 <= hash < 2 ^ 64).
  { destruct (start <? _) eqn:E.
    - rewrite slice_ok by lia. cbn [bind]. eexists; eexists. split; [reflexivity|apply large_range].
    - eexists; eexists. split; [reflexivity|lia]. }
  destruct Hp as (hash & pos & -> & Hh). cbn [bind].
  destruct (next_pow2_ok m (zlen src) ltac:(lia)) as (k & -> & Hk & _). cbn [bind]. pose proof (shiftr1_range k Hk) as Hsh.
  destruct (table_new_ok m (Z.min (Z.shiftr (2 ^ k) 1) win / step) false) as (tb & -> & Htb & Hbk & _).
  { split; [apply Z.div_pos; lia|]. apply Z.le_lt_trans with (Z.min (Z.shiftr (2 ^ k) 1) win); [|lia]. apply Z.div_le_upper_bound; [lia|]. nia. }
  cbn [bind]. apply add_start_total; auto. unfold sm_tot.
  cbn [sm_step sm_hash sm_table sm_src_len sm_trgt_len sm_half sm_max_end sm_win_end sm_max_match].
  split; [exact Htb|]. split; [exact Hh|]. split; [exact Hs1|].
  split; [intros i Hi; exfalso; apply Hi; rewrite Hbk; reflexivity|]. split; [reflexivity|]. split; [reflexivity|].
  split; [apply Z.shiftr_nonneg; lia|]. split; [reflexivity|]. split; [reflexivity|lia].
Qed.

(** ** The main loop *)
Record tinv (src trgt : list Z) (mx : Z) (e : est) : Prop := mkT {
  ti_sm : match e_src e with
          | None => True
          | Some s => sm_tot src trgt s /\ (e_st e = StartNewMatch -> sm_pos s < sm_max s -> e_cur e + 4 < mx -> e_cur e + 9 <= zlen trgt)
          end;
  ti_tm : match e_trgt e with None => True | Some t => tm_tot (e_cur e) t end;
  ti_max : match e_st e, e_ops e with FoundMatch _, c :: _ => right_maximal src trgt c | _, _ => True end
}.
Definition rank (st : estate) : Z := match st with StartNewMatch => 3 | TryMatch => 2 | FoundMatch _ => 1 | MoveForwardOneByte => 0 end.
Definition mu (trgt : list Z) (e : est) : Z := 4 * (zlen trgt - e_cur e) + rank (e_st e).

Lemma initial_run_total trgt : forall n pos run last, 0 <= pos -> pos + Z.of_nat n <= zlen trgt -> exists r, initial_run n trgt pos run last = Ok r.
Proof.
  induction n as [|n IH]; intros pos run last Hp Hl; cbn [initial_run]; [eauto|].
  destruct (idx_ok trgt pos) as (c & -> & _); [lia|]. cbn [bind]. destruct (last =? c); apply IH; lia.
Qed.
Lemma start_total m src trgt mx e : zlen trgt < 2 ^ 63 -> (e_src e <> None -> m = Debug -> zlen trgt * zlen src < 2 ^ 64) -> mx <= zlen trgt -> e_cur e + 4 < mx ->
  e_st e = StartNewMatch -> einv src trgt mx e -> tinv src trgt mx e -> exists e', start_new_match m src trgt e = Ok e' /\ tinv src trgt mx e' /\ mu trgt e' < mu trgt e.
Proof.
  intros Hlt Hm Hmx Hc Est [I1 _ _ _ _ _ I7 I8 _] [T1 T2 T3]. rewrite Est in *. cbn [is_start] in *. unfold start_new_match.
  destruct (initial_run_total trgt 4 (e_cur e) 0 (e_byte e) ltac:(lia) ltac:(lia)) as ([run byte] & ->). cbn [bind].
  assert (S : exists sm, opt_map (fun s => src_seek m s src trgt (e_cur e)) (e_src e) = Ok sm /\ match sm with None => True | Some s => sm_tot src trgt s end).
  { destruct (e_src e) as [s|]; cbn [opt_map]; [|eexists; split; [reflexivity|exact I]]. destruct T1 as [T1 T1'].
    pose proof (zlen_nonneg src).
    destruct (src_seek_total m src trgt s (e_cur e) T1 I7 ltac:(lia)) as (s' & -> & H').
    - intro Hd. specialize (Hm ltac:(discriminate) Hd). nia.
    - intro Hp. apply T1'; auto.
    - cbn [bind]. eexists. split; [reflexivity|exact H']. }
  destruct S as (sm & -> & HS). cbn [bind].
  assert (T : exists tm, opt_map (fun t => trgt_seek t trgt (e_cur e)) (e_trgt e) = Ok tm /\ match tm with None => True | Some t => tm_tot (e_cur e) t end).
  { destruct (e_trgt e) as [t|]; cbn [opt_map]; [|eexists; split; [reflexivity|exact I]].
    destruct (trgt_seek_total t trgt (e_cur e) T2 I8 ltac:(lia) ltac:(lia)) as (t' & -> & H'). cbn [bind]. eexists. split; [reflexivity|exact H']. }
  destruct T as (tm & -> & HT). cbn [bind]. eexists. split; [reflexivity|]. split.
  - constructor; cbn [e_src e_trgt e_st e_cur e_ops]; [|exact HT|exact I]. destruct sm as [s|]; [|exact I]. split; [exact HS|discriminate].
  - unfold mu. rewrite Est. cbn [e_cur e_st rank]. lia.
Qed.
Lemma clear_ops_total ops : forall start, 0 < start -> exists ops', clear_ops ops start = Ok ops'.
Proof.
  induction ops as [|c ops IH]; intros start H; cbn [clear_ops].
  - replace (0 >=? start) with false by lia. eauto.
  - destruct (c_pos c >=? start); eauto.
Qed.
Lemma debug_assert_true m b : b = true -> debug_assert_ m b = Ok tt.
Proof. intros ->. destruct m; reflexivity. Qed.
Lemma try_total m src trgt mx e : zlen trgt < 2 ^ 63 -> zlen src < 2 ^ 63 -> mx <= zlen trgt -> e_cur e + 4 < mx ->
  e_st e = TryMatch -> einv src trgt mx e -> tinv src trgt mx e -> exists e', try_match m src trgt mx e = Ok e' /\ tinv src trgt mx e' /\ mu trgt e' < mu trgt e.
Proof.
  intros Hlt Hls Hmx Hc Est [I1 I2 I3 I4 I5 I6 I7 I8 I9] [T1 T2 T3]. rewrite Est in *. cbn [is_start] in *. destruct I9 as [I9 I10]. unfold try_match.
  assert (R : exists e1, try_run m trgt e = Ok e1).
  { unfold try_run. rewrite slice_ok by lia. cbn [bind]. destruct (e_run e =? 4); [|eauto]. rewrite slice_ok; [cbn [bind]; eauto| |lia].
    rewrite zlen_sub by lia. lia. }
  destruct R as (e1 & He1). rewrite He1. cbn [bind]. destruct (try_run_ok m trgt e e1 ltac:(lia) I10 He1) as (E1 & R1 & R4 & R5). clear He1.
  assert (T1' : match e_src e with None => True | Some s => sm_tot src trgt s end) by (destruct (e_src e); [apply T1|exact I]).
  assert (F : forall c ops len, right_maximal src trgt c -> tinv src trgt mx (found e1 (c :: ops) len) /\ mu trgt (found e1 (c :: ops) len) < mu trgt e).
  { intros c ops len Hcm. rewrite E1. split.
    - constructor; cbn [found e_src e_trgt e_st e_cur e_ops]; [|exact T2|exact Hcm]. destruct (e_src e); [|exact I]. split; [exact T1'|discriminate].
    - unfold mu. rewrite Est. cbn [found e_cur e_st rank]. lia. }
  (* run *)
  assert (A : exists r, take_run m trgt (e_run e =? 4) e1 = Ok r /\ forall e2, r = Some e2 -> tinv src trgt mx e2 /\ mu trgt e2 < mu trgt e).
  { unfold take_run. destruct ((e_run e =? 4) && (e_run e1 >=? e_min e1)) eqn:E; [|eexists; split; [reflexivity|discriminate]].
    apply andb_true_iff in E as [E _]. destruct (R4 ltac:(lia)) as (Q1 & Q2 & Q3 & Q4).
    assert (Ec : e_cur e1 = e_cur e) by (rewrite E1; reflexivity). assert (Eb : e_byte e1 = e_byte e) by (rewrite E1; reflexivity).
    rewrite slice_ok by lia. cbn [bind]. rewrite debug_assert_true by (rewrite Ec, Eb, <- drop_is_sub by lia; lia). cbn [bind].
    eexists. split; [reflexivity|]. intros e2 [= <-]. apply F. unfold right_maximal, c_end. cbn [c_pos c_len]. rewrite Ec, Eb.
    destruct (run_count_max (e_byte e) (drop (e_cur e) trgt)) as [M|M]; rewrite <- Q4 in M.
    - left. rewrite zlen_drop in M by lia. lia.
    - destruct (Z.eq_dec (e_cur e + e_run e1) (zlen trgt)) as [|Hne]; [now left|right]. rewrite drop_is_sub in M by lia. rewrite idx_sub in M by lia. exact M. }
  destruct A as (r & -> & A). cbn [bind]. destruct r as [e2|]; [eexists; split; [reflexivity|now apply A]|]. clear A R4 R5.
  (* source *)
  assert (A : exists r, try_src m src trgt mx e1 = Ok r /\ forall e2, r = Some e2 -> tinv src trgt mx e2 /\ mu trgt e2 < mu trgt e).
  { unfold try_src. rewrite E1. cbn [e_src e_cur e_min e_ops]. rewrite <- E1. clear R1.
    destruct (e_src e) as [s|]; [|eexists; split; [reflexivity|discriminate]]. destruct (e_cur e + 9 <=? mx) eqn:E9; [|eexists; split; [reflexivity|discriminate]].
    destruct I7 as (J1 & J2 & J3). assert (Ep : sm_pos s = e_cur e) by lia. rewrite debug_assert_true by lia. cbn [bind].
    destruct (find_src_total m src trgt s ltac:(lia) ltac:(lia) T1' J2 ltac:(lia)) as (fm & Hf). rewrite Hf. cbn [bind].
    destruct fm as [[[sp pre] post]|]; [|eexists; split; [reflexivity|discriminate]].
    unfold find_best_src_match in Hf. apply bind_ok in Hf as ([p|] & _ & Hf); [|discriminate].
    apply bind_ok in Hf as ([[pre' post']|] & Hx & Hf); [|discriminate]. injection Hf as <- <- <-.
    pose proof (extend_src_maximal _ _ _ _ _ _ _ Hx ltac:(lia) ltac:(lia)) as Hxm. rewrite Ep in Hxm.
    apply extend_src_sound in Hx; [|lia|lia]. rewrite Ep in Hx. set (sp := p * sm_step s) in *.
    destruct Hx as (X1 & X2 & X3 & X4 & X5 & X6 & X7 & X8).
    destruct (_ >=? e_min e); [|eexists; split; [reflexivity|discriminate]].
    rewrite usub_ok by lia. cbn [bind].
    assert (O : exists ops, (if pre' >? 0 then clear_ops (e_ops e) (e_cur e - pre') else Ok (e_ops e)) = Ok ops).
    { destruct (pre' >? 0) eqn:Epre; [|eauto]. apply clear_ops_total. lia. }
    destruct O as (ops & ->). cbn [bind]. rewrite usub_ok by lia. cbn [bind]. rewrite debug_assert_true by lia. cbn [bind].
    assert (D : match m with
                | Debug => do a <- slice src (sp - pre') (sp - pre' + (pre' + (post' + 9))); do b <- slice trgt (e_cur e - pre') (e_cur e - pre' + (pre' + (post' + 9))); assert_ (list_eqb a b)
                | Release => Ok tt end = Ok tt).
    { destruct m; [|reflexivity]. rewrite !slice_ok by lia. cbn [bind].
      replace (sp - pre' + (pre' + (post' + 9)) - (sp - pre')) with (pre' + (post' + 9)) by lia.
      replace (e_cur e - pre' + (pre' + (post' + 9)) - (e_cur e - pre')) with (pre' + (post' + 9)) by lia.
      rewrite X8. replace (list_eqb _ _) with true by (symmetry; now apply list_eqb_eq). reflexivity. }
    rewrite D. cbn [bind]. eexists. split; [reflexivity|]. intros e2 [= <-]. apply F. unfold right_maximal, c_end. cbn [c_pos c_len].
    replace (e_cur e - pre' + (pre' + (post' + 9))) with (e_cur e + 9 + post') by lia. replace (sp - pre' + (pre' + (post' + 9))) with (sp + 9 + post') by lia. exact Hxm. }
  destruct A as (r & -> & A). cbn [bind]. destruct r as [e2|]; [eexists; split; [reflexivity|now apply A]|]. clear A.
  (* target *)
  assert (A : exists r, try_trgt m trgt mx e1 = Ok r /\ forall e2, r = Some e2 -> tinv src trgt mx e2 /\ mu trgt e2 < mu trgt e).
  { unfold try_trgt. rewrite E1. cbn [e_trgt e_cur e_min e_ops]. rewrite <- E1. clear R1.
    destruct (e_trgt e) as [t|]; [|eexists; split; [reflexivity|discriminate]]. replace (e_cur e + 4 <=? mx) with true by lia.
    destruct I8 as (J1 & J2 & J3). rewrite debug_assert_true by lia. cbn [bind].
    destruct (find_trgt_total m t trgt (e_min e) ltac:(lia) ltac:(rewrite J3; exact T2) ltac:(lia)) as (fm & Hf). rewrite Hf. cbn [bind].
    destruct fm as [[start len]|]; [|eexists; split; [reflexivity|discriminate]].
    destruct (len >=? e_min e); [|eexists; split; [reflexivity|discriminate]].
    pose proof (find_trgt_maximal m t trgt _ _ _ ltac:(lia) Hf src) as Hfm. rewrite J3 in Hfm.
    apply find_trgt_sound in Hf as [(S1 & S2 & S3 & S4 & S5 & S6) _]; [|lia]. unfold c_end in S3. cbn [c_pos c_len] in *. rewrite J3 in *.
    rewrite debug_assert_true by lia. cbn [bind].
    assert (D : match m with
                | Debug => do a <- slice trgt start (start + len); do b <- slice trgt (e_cur e) (e_cur e + len); assert_ (list_eqb a b)
                | Release => Ok tt end = Ok tt).
    { destruct m; [|reflexivity]. rewrite !slice_ok by lia. cbn [bind].
      replace (start + len - start) with len by lia. replace (e_cur e + len - e_cur e) with len by lia.
      rewrite S6. replace (list_eqb _ _) with true by (symmetry; now apply list_eqb_eq). reflexivity. }
    rewrite D. cbn [bind]. eexists. split; [reflexivity|]. intros e2 [= <-]. now apply F. }
  destruct A as (r & -> & A). cbn [bind]. destruct r as [e2|]; [eexists; split; [reflexivity|now apply A]|]. clear A.
  eexists. split; [reflexivity|]. rewrite E1. split.
  - constructor; cbn [e_src e_trgt e_st e_cur e_ops]; [|exact T2|exact I]. destruct (e_src e); [|exact I]. split; [exact T1'|discriminate].
  - unfold mu. rewrite Est. cbn [e_cur e_st rank]. lia.
Qed.
Lemma found_total m src trgt lazy mx e len : zlen trgt < 2 ^ 63 -> (e_src e <> None -> no_late_match src trgt lazy) -> mx <= zlen trgt -> e_cur e + 4 < mx ->
  e_st e = FoundMatch len -> einv src trgt mx e -> tinv src trgt mx e -> exists e', found_match m lazy mx e len = Ok e' /\ tinv src trgt mx e' /\ mu trgt e' < mu trgt e.
Proof.
  intros Hlt Hsafe Hmx Hc Est [I1 I2 I3 I4 I5 I6 I7 I8 I9] [T1 T2 T3]. rewrite Est in *. cbn [is_start] in *. destruct I9 as (I9 & I10 & _).
  unfold found_match. rewrite usub_ok by lia. cbn [bind].
  destruct ((lazy >? 0) && (len <? lazy) && (e_cur e + len <? mx - 1)) eqn:E; eexists; (split; [reflexivity|]); split.
  - constructor; cbn [e_src e_trgt e_st e_cur e_ops]; [|exact T2|exact I]. destruct (e_src e); [|exact I]. split; [apply T1|discriminate].
  - unfold mu. rewrite Est. cbn [e_cur e_st rank]. lia.
  - constructor; cbn [e_src e_trgt e_st e_cur].
    + destruct (e_src e) as [s|]; [|exact I]. split; [apply T1|]. intros _ Hp Hj. specialize (Hsafe ltac:(discriminate)).
      destruct (e_ops e) as [|c ops]; cbn [last_end head_pos_le] in *; [lia|]. destruct I4 as [I4 _]. apply Forall_cons_iff in I4 as [Hs _].
      destruct I7 as (J1 & J2 & J3). assert (Hlen : Z.max 4 lazy <= c_len c) by lia.
      specialize (Hsafe c Hs T3 Hlen ltac:(lia)). unfold c_end in Hsafe. lia.
    + destruct (e_trgt e) as [t|]; [|exact I]. apply (tm_tot_mono (e_cur e)); [lia|exact T2].
    + exact I.
  - unfold mu. rewrite Est. cbn [e_cur e_st rank]. lia.
Qed.
Lemma move_total src trgt mx e : zlen trgt < 2 ^ 63 -> mx <= zlen trgt -> e_cur e + 4 < mx ->
  e_st e = MoveForwardOneByte -> einv src trgt mx e -> tinv src trgt mx e -> exists e', move_forward trgt e = Ok e' /\ tinv src trgt mx e' /\ mu trgt e' < mu trgt e.
Proof.
  intros Hlt Hmx Hc Est [I1 I2 I3 I4 I5 I6 I7 I8 I9] [T1 T2 T3]. rewrite Est in *. cbn [is_start] in *. clear I9.
  unfold move_forward. destruct (idx_ok trgt (e_cur e + 4)) as (c & -> & _); [lia|]. cbn [bind].
  assert (T : exists tm, opt_map (trgt_forward trgt (e_cur e)) (e_trgt e) = Ok tm /\ match tm with None => True | Some t => tm_tot (e_cur e + 1) t end).
  { destruct (e_trgt e) as [t|]; cbn [opt_map]; [|eexists; split; [reflexivity|exact I]].
    destruct (trgt_forward_total t trgt (e_cur e) T2 I8 ltac:(lia) ltac:(lia)) as (t' & -> & H'). cbn [bind]. eexists. split; [reflexivity|exact H']. }
  destruct T as (tm & -> & HT). cbn [bind].
  assert (S : exists sm, opt_map (src_forward trgt (e_cur e)) (e_src e) = Ok sm /\ match sm with None => True | Some s => sm_tot src trgt s end).
  { destruct (e_src e) as [s|]; cbn [opt_map]; [|eexists; split; [reflexivity|exact I]].
    destruct (src_forward_total src trgt s (e_cur e) (proj1 T1) I7 ltac:(lia)) as (s' & -> & H'). cbn [bind]. eexists. split; [reflexivity|exact H']. }
  destruct S as (sm & -> & HS). cbn [bind]. eexists. split; [reflexivity|]. split.
  - constructor; cbn [e_src e_trgt e_st e_cur e_ops]; [|exact HT|exact I]. destruct sm as [s|]; [|exact I]. split; [exact HS|discriminate].
  - unfold mu. rewrite Est. cbn [e_cur e_st rank]. lia.
Qed.

Lemma opt_map_none {A} (f : A -> res A) o o' : opt_map f o = Ok o' -> (o' <> None -> o <> None).
Proof. destruct o; cbn; [discriminate|]. intros [= <-]. auto. Qed.
(** A step never creates a source matcher. *)
Lemma try_match_src m src trgt mx e e' : try_match m src trgt mx e = Ok e' -> e_src e' = e_src e.
Proof.
  unfold try_match. intro H. apply bind_ok in H as (e1 & H1 & H).
  assert (E1 : e_src e1 = e_src e).
  { unfold try_run in H1. apply bind_ok in H1 as (rem & _ & H1). destruct (_ =? 4); [|injection H1 as <-; reflexivity].
    apply bind_ok in H1 as (rest & _ & H1). injection H1 as <-. reflexivity. }
  apply bind_ok in H as (r & Hr & H). destruct r as [e2|].
  { injection H as <-. unfold take_run in Hr. destruct (_ && _); [|discriminate]. apply bind_ok in Hr as (w & _ & Hr). apply bind_ok in Hr as (u & _ & Hr). injection Hr as <-. exact E1. }
  clear Hr. apply bind_ok in H as (r & Hr & H). destruct r as [e2|].
  { injection H as <-. unfold try_src in Hr. destruct (e_src e1) as [s|] eqn:Es; [|discriminate]. destruct (_ <=? mx); [|discriminate].
    apply bind_ok in Hr as (u & _ & Hr). apply bind_ok in Hr as (fm & _ & Hr). destruct fm as [[[sp pre] post]|]; [|discriminate]. destruct (_ >=? _); [|discriminate].
    apply bind_ok in Hr as (st & _ & Hr). apply bind_ok in Hr as (ops & _ & Hr). apply bind_ok in Hr as (ss & _ & Hr). apply bind_ok in Hr as (u1 & _ & Hr).
    apply bind_ok in Hr as (u2 & _ & Hr). injection Hr as <-. cbn [found e_src]. congruence. }
  clear Hr. apply bind_ok in H as (r & Hr & H). destruct r as [e2|].
  { injection H as <-. unfold try_trgt in Hr. destruct (e_trgt e1) as [t|]; [|discriminate]. destruct (_ <=? mx); [|discriminate].
    apply bind_ok in Hr as (u & _ & Hr). apply bind_ok in Hr as (fm & _ & Hr). destruct fm as [[st len]|]; [|discriminate]. destruct (_ >=? _); [|discriminate].
    apply bind_ok in Hr as (u1 & _ & Hr). apply bind_ok in Hr as (u2 & _ & Hr). injection Hr as <-. exact E1. }
  injection H as <-. exact E1.
Qed.
Lemma estep_src m src trgt lazy mx e e' : estep m src trgt lazy mx e = Ok e' -> e_src e' <> None -> e_src e <> None.
Proof.
  unfold estep. destruct (e_st e) as [| |len|]; intro H.
  - unfold start_new_match in H. apply bind_ok in H as ([run byte] & _ & H). apply bind_ok in H as (sm & Hs & H). apply bind_ok in H as (tm & _ & H). injection H as <-.
    cbn [e_src]. now apply (opt_map_none _ _ _ Hs).
  - rewrite (try_match_src _ _ _ _ _ _ H). auto.
  - unfold found_match in H. apply bind_ok in H as (l & _ & H). destruct (_ && _); injection H as <-; auto.
  - unfold move_forward in H. apply bind_ok in H as (c & _ & H). apply bind_ok in H as (tm & _ & H). apply bind_ok in H as (sm & Hs & H). injection H as <-.
    cbn [e_src]. now apply (opt_map_none _ _ _ Hs).
Qed.

Lemma estep_total m src trgt lazy mx e : zlen trgt < 2 ^ 63 -> zlen src < 2 ^ 63 -> (e_src e <> None -> m = Debug -> zlen trgt * zlen src < 2 ^ 64) ->
  (e_src e <> None -> no_late_match src trgt lazy) -> mx <= zlen trgt -> e_cur e + 4 < mx -> einv src trgt mx e -> tinv src trgt mx e ->
  exists e', estep m src trgt lazy mx e = Ok e' /\ tinv src trgt mx e' /\ mu trgt e' < mu trgt e.
Proof.
  intros Hlt Hls Hm Hsafe Hmx Hc I T. unfold estep. destruct (e_st e) as [| |len|] eqn:Est.
  - now apply start_total.
  - now apply try_total.
  - now apply found_total.
  - now apply (move_total src trgt mx e).
Qed.
Lemma eloop_total m src trgt lazy mx : Forall is_byte trgt -> zlen trgt < 2 ^ 63 -> zlen src < 2 ^ 63 -> mx <= zlen trgt ->
  forall fuel e, (e_src e <> None -> m = Debug -> zlen trgt * zlen src < 2 ^ 64) -> (e_src e <> None -> no_late_match src trgt lazy) -> einv src trgt mx e -> tinv src trgt mx e -> mu trgt e < Z.of_nat fuel ->
  exists e', eloop fuel m src trgt lazy mx e = Ok e' /\ einv src trgt mx e'.
Proof.
  intros Hb Hlt Hls Hmx. induction fuel as [|fuel IH]; intros e Hm Hsafe I T Hf.
  { exfalso. unfold mu in Hf. destruct I as [I1 _]. destruct (e_st e); cbn [rank] in Hf; lia. }
  cbn [eloop]. destruct (e_cur e + 4 >=? mx) eqn:E; [eauto|].
  destruct (estep_total m src trgt lazy mx e Hlt Hls Hm Hsafe Hmx ltac:(lia) I T) as (e' & He & T' & Hmu). rewrite He. cbn [bind].
  apply IH; [| |eapply estep_inv; eauto; lia|exact T'|lia]; intro Hs; [apply Hm|apply Hsafe]; eapply estep_src; eauto.
Qed.

(** ** The whole inner encoder *)
Definition inner_safe (m : mode) (c : inner_config) (src trgt : list Z) : Prop :=
  match ic_trgt c with Some tc => legal_trgt tc /\ snd (fst (naive_tests (ic_naive c) src trgt)) = 0 | None => True end /\
  match ic_src c with
  | Some sc => legal_src m sc /\ (m = Debug -> zlen src * zlen trgt < 2 ^ 64) /\ no_late_match src trgt (match ic_lazy c with Some n => n | None => 90 end)
  | None => True
  end.
Lemma encode_inner_total m c src trgt : Forall is_byte trgt -> zlen trgt < 2 ^ 62 -> zlen src < 2 ^ 63 -> inner_safe m c src trgt ->
  exists cs, encode_inner m c src trgt = Ok cs.
Proof.
  intros Hb Hlt Hls [Ht Hs]. unfold encode_inner.
  assert (G : exists cs, (if (zlen src =? 0) && match ic_trgt c with None => true | Some _ => false end then Ok [] else
      if zlen trgt =? 0 then Ok [] else
      let '(ops, cur, mx) := naive_tests (ic_naive c) src trgt in
      do tm <- match ic_trgt c with None => Ok None | Some tc => do t <- trgt_build m tc trgt cur; Ok (Some t) end;
      do sm <- match ic_src c with None => Ok None | Some sc => do s <- src_build m sc src cur trgt; Ok (Some s) end;
      let lazy := match ic_lazy c with Some n => n | None => 90 end in
      let e := mkE ops cur 4 0 0 StartNewMatch sm tm in
      do e <- eloop (4 * length trgt + 4) m src trgt lazy mx e;
      do _ <- assert_ (e_cur e <=? zlen trgt);
      let ops := rev (e_ops e) in
      Ok (if mx <? zlen trgt then ops ++ [MSrc 0 (zlen src) mx] else ops)) = Ok cs);
    [|destruct (ic_src c), (ic_trgt c); eauto].
  destruct (_ && _); [eauto|]. destruct (zlen trgt =? 0) eqn:Ez; [eauto|].
  destruct (naive_tests (ic_naive c) src trgt) as [[ops cur] mx] eqn:En. cbn [fst snd] in Ht.
  destruct (naive_tests_ok src trgt _ _ _ _ En) as (N1 & N2 & N3 & N4 & N5 & N6 & _ & N7).
  assert (A : exists tm, match ic_trgt c with None => Ok None | Some tc => do t <- trgt_build m tc trgt cur; Ok (Some t) end = Ok tm /\
     tm_rel trgt cur true tm /\ match tm with None => True | Some t => tm_tot cur t end).
  { destruct (ic_trgt c) as [tc|]; [|eexists; split; [reflexivity|split; exact I]]. destruct Ht as [Hcap ->].
    destruct (trgt_build_total m tc trgt Hcap Hlt) as (t & E & Htm). rewrite E. cbn [bind]. eexists. split; [reflexivity|].
    split; [eapply trgt_build_rel, E; lia|exact Htm]. }
  destruct A as (tm & -> & Rtm & Ttm). cbn [bind].
  assert (A : exists sm, match ic_src c with None => Ok None | Some sc => do s <- src_build m sc src cur trgt; Ok (Some s) end = Ok sm /\
     sm_rel trgt cur true sm /\ match sm with None => True | Some s => sm_tot src trgt s /\ (sm_pos s < sm_max s -> cur + 9 <= zlen trgt) end /\
     (sm <> None -> no_late_match src trgt (match ic_lazy c with Some n => n | None => 90 end)) /\ (sm <> None -> m = Debug -> zlen src * zlen trgt < 2 ^ 64)).
  { destruct (ic_src c) as [sc|]; [|eexists; split; [reflexivity|]; split; [exact I|]; split; [exact I|]; split; contradiction]. destruct Hs as (Hw & Hd & Hj).
    pose proof (zlen_nonneg src). destruct (src_build_total m sc src trgt cur Hw Hls ltac:(lia)) as (s & E & Hsm).
    { intro H0. specialize (Hd H0). nia. }
    rewrite E. cbn [bind]. eexists. split; [reflexivity|]. pose proof (src_build_rel m sc src trgt cur s ltac:(lia) E) as R. split; [exact R|].
    split; [split; [exact Hsm|]|auto]. intro Hp. unfold src_build in E.
    apply bind_ok in E as (win & _ & E). apply bind_ok in E as ([hash pos] & Hpos & E). apply bind_ok in E as (p & _ & E). apply bind_ok in E as (tb & _ & E).
    apply add_start_same in E as (P1 & P2 & _). cbn [sm_pos sm_max] in P1, P2.
    destruct (cur <? Z.max 0 (zlen trgt - 9)) eqn:Ec; [lia|]. injection Hpos as _ <-. lia. }
  destruct A as (sm & -> & Rsm & Tsm & Hsafe & Hdbg). cbn [bind]. cbv zeta.
  assert (I0 : einv src trgt mx (mkE ops cur 4 0 0 StartNewMatch sm tm)).
  { constructor; cbn [e_cur e_min e_byte e_ops e_st e_src e_trgt is_start]; auto; try lia.
    - unfold is_byte. lia.
    - destruct ops; [exact I|]. cbn in *. lia.
    - destruct ops; [exact I|]. cbn in *. lia. }
  assert (T0 : tinv src trgt mx (mkE ops cur 4 0 0 StartNewMatch sm tm)).
  { constructor; cbn [e_cur e_st e_src e_trgt e_ops]; [|exact Ttm|exact I]. destruct sm as [s|]; [|exact I]. destruct Tsm as [X Y]. split; [exact X|auto]. }
  assert (L : exists e', eloop (4 * length trgt + 4) m src trgt (match ic_lazy c with Some n => n | None => 90 end) mx (mkE ops cur 4 0 0 StartNewMatch sm tm) = Ok e' /\ einv src trgt mx e').
  { apply eloop_total; [exact Hb|lia|exact Hls|exact N3| |exact Hsafe|exact I0|exact T0|].
    - cbn [e_src]. intros H0 H1. rewrite Z.mul_comm. now apply Hdbg.
    - unfold mu. cbn [e_cur e_st rank]. unfold zlen in *. lia. }
  destruct L as (e' & -> & I'). cbn [bind]. destruct I' as [I1 _]. replace (e_cur e' <=? zlen trgt) with true by lia. cbn [assert_ bind]. eauto.
Qed.
