(** Targets with 32-bit pointers, the encoder side: hasher, hash table, source window. Property C103. *)
From Verif Require Import Base Spec SpecEnc MCommon MHasher MHashmap MTrgtMatcher MSrcMatcher MEncInner SpecApi M32 PBase PHasher PHashmap PEncInner PTotal PVcdiff TMatch.
Ltac Zify.zify_post_hook ::= idtac.
Arguments Z.add : simpl never.
Arguments Z.sub : simpl never.
Arguments Z.mul : simpl never.
Arguments Z.pow : simpl never.
Arguments Z.div : simpl never.
Arguments Z.modulo : simpl never.

(** ** The checksum *)
Lemma large32_explicit a b c d e f g h i : large_checksum32 [a; b; c; d; e; f; g; h; i] =
  (785718369 * a + 2237430173 * b + 2226829033 * c + 2554380293 * d + 438510001 * e + 1152009645 * f + 1664532153 * g + 1597334677 * h + 1 * i) mod 4294967296.
Proof.
  pose proof (sum_fold 4294967296 (combine [a; b; c; d; e; f; g; h; i] POWERS32) 0) as H.
  unfold large_checksum32, to_u32. etransitivity; [exact H|]. f_equal. unfold POWERS32. cbn [combine fold_right fst snd]. lia.
Qed.
Lemma fwd32_explicit s o n : large_fwd32 (s mod 4294967296) o n = (HASH_MULT32 * s - FIRST_BYTE_WEIGHT32 * o + n) mod 4294967296.
Proof.
  unfold large_fwd32. rewrite !to_u32_mod.
  rewrite Zplus_mod_idemp_l, <- Zplus_mod_idemp_l, Zminus_mod_idemp_l, Zminus_mod_idemp_r, Zplus_mod_idemp_l.
  rewrite <- Zplus_mod_idemp_l, <- Zminus_mod_idemp_l, Zmult_mod_idemp_r, Zminus_mod_idemp_l, Zplus_mod_idemp_l. reflexivity.
Qed.
Lemma bwd32_explicit s o n : large_bwd32 (s mod 4294967296) o n = ((s - o + FIRST_BYTE_WEIGHT32 * n) * MOD_INV32) mod 4294967296.
Proof.
  unfold large_bwd32. rewrite !to_u32_mod.
  rewrite Zmult_mod_idemp_l, <- Zmult_mod_idemp_l, Zplus_mod_idemp_l, Zplus_mod_idemp_r, <- Zplus_mod_idemp_l, Zminus_mod_idemp_l, Zplus_mod_idemp_l, Zmult_mod_idemp_l.
  reflexivity.
Qed.
Lemma large32_fwd9 a b c d e f g h i n : large_fwd32 (large_checksum32 [a; b; c; d; e; f; g; h; i]) a n = large_checksum32 [b; c; d; e; f; g; h; i; n].
Proof.
  rewrite !large32_explicit, fwd32_explicit. apply (mod_shift _ _ _ (292215309 * a + 832119212 * b + 828176558 * c + 949995643 * d + 163085579 * e + 428442134 * f + 619053591 * g + 594062281 * h)). unfold HASH_MULT32, FIRST_BYTE_WEIGHT32. lia.
Qed.
Lemma large32_bwd9 a b c d e f g h i n : large_bwd32 (large_checksum32 [b; c; d; e; f; g; h; i; n]) n a = large_checksum32 [a; b; c; d; e; f; g; h; i].
Proof.
  rewrite !large32_explicit, bwd32_explicit. apply (mod_shift _ _ _ (320077596 * a + 155813797 * b + 443699047 * c + 441596762 * d + 506552614 * e + 86959795 * f + 228452082 * g + 330089108 * h + 316763349 * i)). unfold MOD_INV32, FIRST_BYTE_WEIGHT32. lia.
Qed.
(** C103. Rolling one byte forward or backward gives the checksum computed from scratch at the new position. *)
Theorem C103_rolling_equals_fresh : forall (l : list Z) pos old new, 0 <= pos -> pos + 10 <= zlen l -> idx l pos = Ok old -> idx l (pos + 9) = Ok new ->
  large_fwd32 (large_checksum32 (sub l pos 9)) old new = large_checksum32 (sub l (pos + 1) 9) /\
  large_bwd32 (large_checksum32 (sub l (pos + 1) 9)) new old = large_checksum32 (sub l pos 9).
Proof.
  intros l pos old new Hp Hl Ho Hn.
  assert (E1 : exists w, zlen w = 8 /\ sub l pos 9 = old :: w /\ sub l (pos + 1) 9 = w ++ [new]).
  { exists (sub l (pos + 1) 8). split; [apply zlen_sub; lia|]. split.
    - rewrite (sub_split l pos 9 1) by lia. rewrite (idx_sub1 l pos old Ho). reflexivity.
    - rewrite (sub_split l (pos + 1) 9 8) by lia. replace (pos + 1 + 8) with (pos + 9) by lia. rewrite <- (idx_sub1 l (pos + 9) new Hn). reflexivity. }
  destruct E1 as (w & Hw & -> & ->).
  do 8 (destruct w as [|? w]; [exfalso; rewrite ?zlen_cons, (@zlen_nil Z) in Hw; lia|]).
  destruct w as [|? w]; [|exfalso; rewrite ?zlen_cons in Hw; pose proof (zlen_nonneg w); lia].
  split; [apply large32_fwd9|apply large32_bwd9].
Qed.
Example C103_rolling_example : large_checksum32 [1; 2; 3; 4; 5; 6; 7; 8; 9] <> large_checksum32 [2; 3; 4; 5; 6; 7; 8; 9; 10] /\
  large_fwd32 (large_checksum32 [1; 2; 3; 4; 5; 6; 7; 8; 9]) 1 10 = large_checksum32 [2; 3; 4; 5; 6; 7; 8; 9; 10].
Proof. split; [vm_compute; discriminate|vm_compute; reflexivity]. Qed.

(** ** The hash table *)
Lemma next_pow32_same m n : n <= 2 ^ 31 -> next_power_of_two32 m n = next_power_of_two m n.
Proof. intro H. unfold next_power_of_two32, next_power_of_two. replace (n >? 2 ^ 31) with false by lia. replace (n >? 2 ^ 63) with false by lia. reflexivity. Qed.
Lemma next_pow32_bound m n : n <= 2 ^ 31 -> exists k, next_power_of_two32 m n = Ok (2 ^ k) /\ 0 <= k <= 31.
Proof.
  intro H. rewrite next_pow32_same by exact H. destruct (next_pow2_ok m n ltac:(lia)) as (k & E & Hk & H1 & H0). exists k. split; [exact E|].
  destruct (Z_le_gt_dec n 1); [lia|]. rewrite H1 by lia. pose proof (Z.log2_up_nonneg n). pose proof (Z.log2_up_le_mono _ _ H) as G. rewrite Z.log2_up_pow2 in G by lia. lia.
Qed.
Lemma table_new32_same m cap : 0 <= cap < 2 ^ 31 -> table_new32 m cap = table_new m cap true.
Proof.
  intro H. unfold table_new32, table_new, table_bits32, table_bits. rewrite arith_u32_ok by lia. cbn [bind].
  destruct (next_pow32_bound m (cap + 1) ltac:(lia)) as (k & E & Hk). rewrite E. rewrite next_pow32_same in E by lia. rewrite E. cbn [bind].
  assert (0 < 2 ^ k) by (apply Z.pow_pos_nonneg; lia). replace (2 ^ k =? 0) with false by lia. rewrite Z.log2_pow2 by lia.
  replace (Z.min (Z.max k 3) 32) with (Z.min (Z.max k 3) 64) by lia. set (b := Z.min (Z.max k 3) 64 - 1). rewrite (arith_u32_ok m (32 - b)) by (unfold b; lia). rewrite usub_ok by (unfold b; lia). reflexivity.
Qed.
(** C103. The hash table of the source matcher behaves as documented: a found position is the latest one inserted under this hash, and a hash is only lost to a later
    insertion of another hash. *)
Theorem C103_table_sound : forall m cap hist, 0 <= cap < 2 ^ 31 -> Forall (fun e => 0 <= fst e < 2 ^ 32 /\ 0 <= snd e) hist ->
  exists t0 t, table_new32 m cap = Ok t0 /\ inserts t0 hist = Ok t /\
  forall h, 0 <= h < 2 ^ 32 ->
  exists r, table_get t h = Ok r /\
    (forall p, r = Some p -> exists before after, hist = before ++ (h, p) :: after /\ ~ In h (map fst after)) /\
    (r = None -> forall before p after, hist = before ++ (h, p) :: after -> exists h', In h' (map fst after) /\ h' <> h).
Proof. intros m cap hist Hc Hh. rewrite table_new32_same by exact Hc. apply (C39_table_sound m cap true hist); [cbn [Z.pow] in *; lia|exact Hh]. Qed.
Example C103_table_example : exists t0 t, table_new32 Debug 100 = Ok t0 /\ inserts t0 [(5, 1); (4000000000, 2); (5, 3)] = Ok t /\ t_size t = 64 /\
  table_get t 5 = Ok (Some 3) /\ table_get t 4000000000 = Ok (Some 2) /\ table_get t 6 = Ok None.
Proof. eexists. eexists. split; [vm_compute; reflexivity|]. split; [cbn; reflexivity|]. vm_compute. auto. Qed.

(** ** The source window *)
(** Half the source window for the given configuration: the configured size (rounded up to a power of two, at least 1 MiB), or 64 MiB. *)
Definition half_window32 (c : src_config) : Z :=
  match sc_win c with None => 2 ^ 25 | Some n => Z.max (2 ^ Z.log2_up n) (2 ^ 20) / 2 end.
(** Where hashing of the source ends: 9 bytes before its end, aligned to the step. *)
Definition hash_end (c : src_config) (src : list Z) : Z := let n := Z.max 0 (zlen src - 9) in n - n mod Z.max 1 (sc_step c).

Definition sm_tot32 (src trgt : list Z) (s : src_matcher) : Prop :=
  table_good 32 (sm_table s) /\ 1 <= sm_step s /\
  (forall i, b_value (t_buckets (sm_table s) i) <> 0 ->
     0 <= (b_value (t_buckets (sm_table s) i) - 1) * sm_step s /\ (b_value (t_buckets (sm_table s) i) - 1) * sm_step s + 9 <= zlen src) /\
  sm_src_len s = zlen src /\ sm_trgt_len s = zlen trgt /\ 2 ^ 19 <= sm_half s <= 2 ^ 30 /\ sm_max_end s = align (Z.max 0 (zlen src - 9)) (sm_step s) /\
  sm_win_end s = 0 /\ 0 <= sm_max_match s.
Lemma large32_range data : 0 <= large_checksum32 data < 2 ^ 32.
Proof. unfold large_checksum32. apply (fold_left_inv (fun x => 0 <= x < 2 ^ 32)); [intros; apply to_u32_range|lia]. Qed.
Lemma store32 m src trgt s h pos : sm_tot32 src trgt s -> 0 <= h < 2 ^ 32 -> 0 <= pos -> pos mod sm_step s = 0 -> pos + 9 <= zlen src ->
  exists t, src_store m s h pos = Ok (sm_set_table s t) /\ sm_tot32 src trgt (sm_set_table s t).
Proof.
  intros (S1 & S3 & S4 & S5) Hh Hp Hm Hl. unfold src_store.
  replace (pos mod sm_step s =? 0) with true by lia. replace (debug_assert_ m true) with (Ok tt) by (destruct m; reflexivity). cbn [bind].
  destruct (table_insert_total 32 (sm_table s) h (pos / sm_step s) S1 Hh) as (tb & -> & G1 & G2). cbn [bind].
  eexists. split; [reflexivity|]. unfold sm_tot32, sm_set_table.
  cbn [sm_step sm_hash sm_table sm_src_len sm_trgt_len sm_half sm_max_end sm_win_end sm_max_match].
  split; [exact G1|]. split; [exact S3|]. split; [|exact S5].
  intro i. rewrite G2. unfold upd. destruct (i =? _); [|apply S4]. cbn [b_value]. intros _.
  pose proof (Z.div_mod pos (sm_step s) ltac:(lia)). replace (pos / sm_step s + 1 - 1) with (pos / sm_step s) by lia. rewrite Z.mul_comm. lia.
Qed.
Definition only_table (s s' : src_matcher) : Prop := exists t, s' = sm_set_table s t.
Lemma only_table_trans a b c : only_table a b -> only_table b c -> only_table a c.
Proof. intros [t ->] [t' ->]. exists t'. reflexivity. Qed.
Lemma only_table_refl a : only_table a a.
Proof. exists (sm_table a). destruct a. reflexivity. Qed.
Lemma hash_steps32_total m src trgt lo : forall n s, sm_tot32 src trgt s -> 0 <= lo -> lo mod sm_step s = 0 ->
  (forall k, (k < n)%nat -> lo + Z.of_nat k * sm_step s + 9 <= zlen src) -> exists s', hash_steps32 n m s src lo = Ok s' /\ sm_tot32 src trgt s' /\ only_table s s'.
Proof.
  induction n as [|n IH]; intros s Hs Hlo Hm Hk; cbn [hash_steps32]; [exists s; split; [reflexivity|split; [exact Hs|apply only_table_refl]]|].
  pose proof (Hk n ltac:(lia)) as Hn. assert (S3 : 1 <= sm_step s) by apply Hs. assert (0 <= Z.of_nat n * sm_step s) by nia.
  rewrite slice_ok by lia. cbn [bind].
  destruct (store32 m src trgt s (large_checksum32 (sub src (lo + Z.of_nat n * sm_step s) (lo + Z.of_nat n * sm_step s + 9 - (lo + Z.of_nat n * sm_step s)))) (lo + Z.of_nat n * sm_step s) Hs) as (t1 & -> & T1);
    [apply large32_range|lia| |lia|].
  { rewrite Z_mod_plus_full. exact Hm. }
  cbn [bind]. destruct (IH (sm_set_table s t1) T1 Hlo Hm) as (s' & E & A & B); [intros k Hk1; apply Hk; lia|]. exists s'. split; [exact E|]. split; [exact A|]. eapply only_table_trans; [|exact B]. now exists t1.
Qed.
Lemma hash_roll32_total m src trgt lo : forall n s h, sm_tot32 src trgt s -> 0 <= lo -> 0 <= h < 2 ^ 32 ->
  (n = O \/ lo + Z.of_nat n + 9 <= zlen src) -> exists s', hash_roll32 n m s src lo h = Ok s' /\ sm_tot32 src trgt s' /\ only_table s s'.
Proof.
  induction n as [|n IH]; intros s h Hs Hlo Hh Hk; cbn [hash_roll32]; [exists s; split; [reflexivity|split; [exact Hs|apply only_table_refl]]|].
  destruct (idx_ok src (lo + Z.of_nat n + 9)) as (o & -> & _); [lia|]. destruct (idx_ok src (lo + Z.of_nat n)) as (w & -> & _); [lia|]. cbn [bind].
  assert (E : exists s1, (if (lo + Z.of_nat n) mod sm_step s =? 0 then src_store m s (large_bwd32 h o w) (lo + Z.of_nat n) else Ok s) = Ok s1 /\ sm_tot32 src trgt s1 /\ only_table s s1).
  { destruct (_ =? 0) eqn:E; [|exists s; split; [reflexivity|split; [exact Hs|apply only_table_refl]]]. destruct (store32 m src trgt s (large_bwd32 h o w) (lo + Z.of_nat n) Hs) as (t1 & A & B);
      [apply to_u32_range|lia|lia|lia|]. eexists. split; [exact A|]. split; [exact B|]. now exists t1. }
  destruct E as (s1 & -> & T1 & T2). cbn [bind]. destruct (IH s1 (large_bwd32 h o w) T1 Hlo ltac:(apply to_u32_range) ltac:(lia)) as (s' & E & A & B). exists s'. split; [exact E|]. split; [exact A|]. eapply only_table_trans; eassumption.
Qed.
Lemma window32_total m src trgt s cur : sm_tot32 src trgt s -> zlen src < 2 ^ 31 -> zlen trgt < 2 ^ 31 -> 0 <= cur <= zlen trgt -> (m = Debug -> cur < sm_half s \/ sm_max_end s = 0) ->
  exists r, window_range32 m s cur = Ok r /\ forall lo hi, r = Some (lo, hi) -> 0 <= lo /\ lo mod sm_step s = 0 /\ 0 <= hi <= sm_max_end s /\ (cur < sm_half s -> lo = 0 /\ hi = Z.min (2 * sm_half s) (sm_max_end s)).
Proof.
  intros (S1 & S3 & S4 & S5 & S6 & S7 & S8 & S9 & S10) Hls Hlt Hc Hm. unfold window_range32.
  pose proof (align_bounds (Z.max 0 (zlen src - 9)) (sm_step s) S3 ltac:(lia)) as A. rewrite <- S8 in A. pose proof (zlen_nonneg src).
  destruct (cur <? sm_half s) eqn:Ec.
  { eexists. split; [reflexivity|]. intros lo hi [= <- <-]. split; [lia|]. split; [apply Z.mod_0_l; lia|]. split; [lia|]. intros _. lia. }
  destruct (sm_win_end s >=? sm_max_end s) eqn:Ew; [eexists; split; [reflexivity|discriminate]|].
  assert (P : exists prod, arith m to_u32 (cur * sm_src_len s) = Ok prod /\ 0 <= prod < 2 ^ 32).
  { destruct m; [exfalso; destruct (Hm eq_refl); lia|]. unfold arith. destruct (to_u32 _ =? _) eqn:E; [eexists; split; [reflexivity|]; pose proof (to_u32_range (cur * sm_src_len s)); lia|eexists; split; [reflexivity|apply to_u32_range]]. }
  destruct P as (prod & -> & Hprod). cbn [bind].
  assert (Hq : 0 <= prod / sm_trgt_len s <= 2 ^ 13).
  { rewrite S6. split; [apply Z.div_pos; lia|]. apply Z.div_le_upper_bound; [lia|]. nia. }
  rewrite arith_u32_ok by lia. cbn [bind].
  assert (Hse : 0 <= Z.min (prod / sm_trgt_len s + sm_half s) (sm_max_end s) <= sm_max_end s) by (clear - A Hq S7; lia).
  pose proof (align_bounds _ (sm_step s) S3 (proj1 Hse)) as B.
  set (se := align (Z.min (prod / sm_trgt_len s + sm_half s) (sm_max_end s)) (sm_step s)) in *.
  destruct (_ || _); [eexists; split; [reflexivity|discriminate]|].
  eexists. split; [reflexivity|]. intros lo hi [= <- <-].
  assert (Hst : 0 <= Z.max (Z.max (sm_win_end s) (sm_max_match s)) (Z.max 0 (se - 2 * sm_half s))) by (clear; lia).
  pose proof (align_bounds _ (sm_step s) S3 Hst) as C. clearbody se. 
  split; [apply C|]. split; [apply C|]. split; [clear - B C Hse; lia|]. intro; lia.
Qed.
Lemma add_start32_total m src trgt s cur : sm_tot32 src trgt s -> zlen src < 2 ^ 31 -> zlen trgt < 2 ^ 31 -> 0 <= cur <= zlen trgt -> (m = Debug -> cur < sm_half s \/ sm_max_end s = 0) ->
  exists s', add_start_positions32 m s cur src = Ok s' /\ sm_tot32 src trgt s' /\
    ((s' = s /\ (cur < sm_next s \/ sm_half s <= cur)) \/ exists n, only_table (sm_set_next s n) s' /\ (cur < sm_half s -> n = if Z.min (2 * sm_half s) (sm_max_end s) >=? sm_max_end s then USIZE_MAX32 else cur + sm_half s)).
Proof.
  intros Hs Hls Hlt Hc Hm. unfold add_start_positions32. destruct (cur <? sm_next s) eqn:Ex; [exists s; split; [reflexivity|]; split; [exact Hs|left; split; [reflexivity|lia]]|].
  destruct (window32_total m src trgt s cur Hs Hls Hlt Hc Hm) as (r & Ew & Hr). rewrite Ew. cbn [bind]. destruct r as [[lo hi]|].
  2: { exists s. split; [reflexivity|]. split; [exact Hs|]. left. split; [reflexivity|]. right. unfold window_range32 in Ew. destruct (cur <? sm_half s) eqn:Ey; [discriminate|lia]. }
  destruct (Hr lo hi eq_refl) as (R1 & R2 & R3 & R4). replace (lo mod sm_step s =? 0) with true by lia.
  replace (debug_assert_ m true) with (Ok tt) by (destruct m; reflexivity). cbn [bind].
  assert (S7 : 2 ^ 19 <= sm_half s <= 2 ^ 30) by apply Hs.
  assert (En : exists n, (if hi >=? sm_max_end s then Ok USIZE_MAX32 else arith m to_u32 (cur + sm_half s)) = Ok n /\ n = if hi >=? sm_max_end s then USIZE_MAX32 else cur + sm_half s).
  { destruct (hi >=? sm_max_end s); [eauto|]. rewrite arith_u32_ok by lia. eauto. }
  destruct En as (n & -> & En). cbn [bind].
  set (s0 := sm_set_next s n). assert (H0 : sm_tot32 src trgt s0) by exact Hs. change (sm_step s) with (sm_step s0) in *. change (sm_max_end s) with (sm_max_end s0) in *.
  assert (S3 : 1 <= sm_step s0) by apply Hs. assert (S8 : sm_max_end s0 = align (Z.max 0 (zlen src - 9)) (sm_step s0)) by apply Hs.
  pose proof (align_bounds (Z.max 0 (zlen src - 9)) (sm_step s0) S3 ltac:(lia)) as A. rewrite <- S8 in A.
  pose proof (zlen_nonneg src) as Hz.
  assert (G : exists s', (if sm_step s0 >=? 9 then hash_steps32 (Z.to_nat ((hi - lo + sm_step s0 - 1) / sm_step s0)) m s0 src lo
     else let last := align (Z.max 0 (hi - 9)) (sm_step s0) in do w <- slice src last hi; hash_roll32 (Z.to_nat (last - lo)) m s0 src lo (large_checksum32 w)) = Ok s' /\ sm_tot32 src trgt s' /\ only_table s0 s').
  { destruct (sm_step s0 >=? 9).
    - apply hash_steps32_total; auto. intros k Hk.
      assert (Hlt' : Z.of_nat k < (hi - lo + sm_step s0 - 1) / sm_step s0) by lia.
      pose proof (Z.mul_div_le (hi - lo + sm_step s0 - 1) (sm_step s0) ltac:(lia)) as Hd.
      assert (lo + Z.of_nat k * sm_step s0 < hi) by nia. lia.
    - pose proof (align_bounds (Z.max 0 (hi - 9)) (sm_step s0) S3 ltac:(lia)) as B. cbv zeta.
      set (last := align (Z.max 0 (hi - 9)) (sm_step s0)) in *. rewrite slice_ok by lia. cbn [bind].
      apply hash_roll32_total; auto; [apply large32_range|]. lia. }
  destruct G as (s' & E & G1 & G2). exists s'. split; [exact E|]. split; [exact G1|]. right. exists n. split; [exact G2|]. intro Hcc. destruct (R4 Hcc) as [_ <-]. exact En.
Qed.
Lemma window_half m c : match sc_win c with Some n => n <= 2 ^ 31 | None => True end ->
  exists win, match sc_win c with Some n => do p <- next_power_of_two32 m n; Ok (Z.max p MIN_SRC_WIN_SIZE) | None => Ok DEFAULT_SRC_WIN_SIZE end = Ok win /\
    Z.shiftr win 1 = half_window32 c /\ 2 ^ 20 <= win <= 2 ^ 31 /\ 2 ^ 19 <= half_window32 c <= 2 ^ 30.
Proof.
  unfold half_window32. destruct (sc_win c) as [n|]; intro H.
  - destruct (next_pow32_bound m n H) as (k & E & Hk). rewrite E. cbn [bind]. eexists. split; [reflexivity|]. unfold MIN_SRC_WIN_SIZE.
    assert (Ep : 2 ^ k = 2 ^ Z.log2_up n).
    { unfold next_power_of_two32 in E. destruct (n <=? 1) eqn:E1; [injection E as <-|]. - rewrite Z.log2_up_eqn0 by lia. reflexivity. - replace (n >? 2 ^ 31) with false in E by lia. injection E as <-. reflexivity. }
    rewrite Z.shiftr_div_pow2 by lia. change (2 ^ 1) with 2. rewrite <- Ep. pose proof (Z.pow_le_mono_r 2 k 31 ltac:(lia) ltac:(lia)). split; [reflexivity|]. split; [lia|].
    split; [apply Z.div_le_lower_bound; lia|apply Z.div_le_upper_bound; lia].
  - eexists. split; [reflexivity|]. unfold DEFAULT_SRC_WIN_SIZE. split; [reflexivity|]. lia.
Qed.
Lemma build32 m c src start trgt : match sc_win c with Some n => n <= 2 ^ 31 | None => True end -> zlen src < 2 ^ 31 -> zlen trgt < 2 ^ 31 -> 0 <= start <= zlen trgt ->
  exists s0, src_build32 m c src start trgt = add_start_positions32 m s0 start src /\ sm_tot32 src trgt s0 /\ sm_half s0 = half_window32 c /\ sm_max_end s0 = hash_end c src /\ sm_next s0 = 0 /\ sm_max_match s0 = start.
Proof.
  intros Hw Hls Hlt Hst. pose proof (zlen_nonneg src). unfold src_build32. destruct (window_half m c Hw) as (win & -> & Hh & Hwin & Hhb). cbn [bind].
  assert (Hp : exists hash pos, (if start <? Z.max 0 (zlen trgt - 9) then do w <- slice trgt start (start + 9); Ok (large_checksum32 w, start)
                     else Ok (0, Z.max 0 (zlen trgt - 9))) = Ok (hash, pos)).
  { destruct (start <? _) eqn:E; [rewrite slice_ok by lia; cbn [bind]|]; eauto. }
  destruct Hp as (hash & pos & ->). cbn [bind]. destruct (next_pow32_bound m (zlen src) ltac:(lia)) as (k & -> & Hk). cbn [bind].
  set (step := Z.max (sc_step c) 1). assert (Hs1 : 1 <= step) by (unfold step; lia).
  assert (Hcap : 0 <= Z.min (Z.shiftr (2 ^ k) 1) win / step < 2 ^ 31).
  { assert (0 <= Z.shiftr (2 ^ k) 1 < 2 ^ 31).
    { rewrite Z.shiftr_div_pow2 by lia. change (2 ^ 1) with 2. pose proof (Z.pow_le_mono_r 2 k 31 ltac:(lia) ltac:(lia)). assert (0 < 2 ^ k) by (apply Z.pow_pos_nonneg; lia). split; [apply Z.div_pos; lia|apply Z.div_lt_upper_bound; lia]. }
    split; [apply Z.div_pos; lia|]. apply Z.le_lt_trans with (Z.min (Z.shiftr (2 ^ k) 1) win); [|lia]. apply Z.div_le_upper_bound; [lia|]. nia. }
  rewrite table_new32_same by exact Hcap. destruct (table_new_ok m (Z.min (Z.shiftr (2 ^ k) 1) win / step) true ltac:(cbn [Z.pow]; lia)) as (tb & -> & Htb & Hbk & _). cbn [bind].
  eexists. split; [reflexivity|]. unfold sm_tot32. cbn [sm_step sm_hash sm_table sm_src_len sm_trgt_len sm_half sm_max_end sm_win_end sm_max_match sm_next]. rewrite Hh.
  split; [|split; [reflexivity|split; [unfold hash_end, align; cbv zeta; rewrite (Z.max_comm 1); reflexivity|auto]]].
  split; [exact Htb|]. split; [exact Hs1|]. split; [intros i Hi; exfalso; apply Hi; rewrite Hbk; reflexivity|]. repeat (split; [reflexivity || exact Hhb|]). lia.
Qed.

(** C103. With overflow checks: the encoder cannot slide its source window. Searching for a match at position [cur] is fine (and hashes nothing) before the output reaches half a window
    past the start, or when the whole source fits into the window; otherwise it panics, whatever the hash state [h], [p] of the target. *)
Theorem C103_checked_window_never_slides : forall c src start trgt cur h p, match sc_win c with Some n => n <= 2 ^ 31 | None => True end -> zlen src < 2 ^ 31 -> zlen trgt < 2 ^ 31 ->
  0 <= start < half_window32 c -> start <= zlen trgt -> start <= cur <= zlen trgt ->
  exists s, src_build32 Debug c src start trgt = Ok s /\
    add_start_positions32 Debug (sm_set_fwd s h p) cur src =
      if (cur <? start + half_window32 c) || (hash_end c src <=? 2 * half_window32 c) then Ok (sm_set_fwd s h p) else Panic.
Proof.
  intros c src start trgt cur h p Hw Hls Hlt Hst Hst' Hc. destruct (build32 Debug c src start trgt Hw Hls Hlt ltac:(lia)) as (s0 & -> & T & Hh & He & Hn & Hmm).
  assert (S7 : 2 ^ 19 <= sm_half s0 <= 2 ^ 30) by apply T.
  destruct (add_start32_total Debug src trgt s0 start T Hls Hlt ltac:(lia) ltac:(intros _; left; lia)) as (s & E & T' & G). exists s. split; [exact E|].
  assert (G' : exists tb, s = sm_set_table (sm_set_next s0 (if Z.min (2 * sm_half s0) (sm_max_end s0) >=? sm_max_end s0 then USIZE_MAX32 else start + sm_half s0)) tb).
  { destruct G as [[-> HG]|(n & [tb ->] & Gn)]; [lia|]. rewrite Gn by lia. eauto. }
  destruct G' as [tb ->]. clear E G T'. unfold add_start_positions32. cbn [sm_set_fwd sm_set_table sm_set_next sm_next].
  rewrite <- Hh, <- He. destruct (Z_le_gt_dec (sm_max_end s0) (2 * sm_half s0)) as [Hf|Hf].
  - replace (Z.min (2 * sm_half s0) (sm_max_end s0) >=? sm_max_end s0) with true by lia. replace (cur <? USIZE_MAX32) with true by (unfold USIZE_MAX32; lia). replace (sm_max_end s0 <=? 2 * sm_half s0) with true by lia. rewrite orb_true_r. reflexivity.
  - replace (Z.min (2 * sm_half s0) (sm_max_end s0) >=? sm_max_end s0) with false by lia. replace (sm_max_end s0 <=? 2 * sm_half s0) with false by lia. rewrite orb_false_r.
    destruct (cur <? start + sm_half s0) eqn:Ec; [reflexivity|]. unfold window_range32. cbn [sm_half sm_win_end sm_max_end sm_src_len sm_set_fwd sm_set_table sm_set_next].
    replace (cur <? sm_half s0) with false by lia. assert (W : sm_win_end s0 = 0) by apply T. assert (L : sm_src_len s0 = zlen src) by apply T. rewrite W, L. replace (0 >=? sm_max_end s0) with false by lia.
    assert (S3 : 1 <= sm_step s0) by apply T. assert (S8 : sm_max_end s0 = align (Z.max 0 (zlen src - 9)) (sm_step s0)) by apply T.
    pose proof (align_bounds (Z.max 0 (zlen src - 9)) (sm_step s0) S3 ltac:(lia)) as A. rewrite <- S8 in A.
    assert (Hbig : 2 ^ 32 <= cur * zlen src) by nia. unfold arith. replace (to_u32 (cur * zlen src) =? cur * zlen src) with false; [reflexivity|].
    symmetry. apply Z.eqb_neq. pose proof (to_u32_range (cur * zlen src)). lia.
Qed.

(** C103. Without overflow checks: whatever positions the encoder goes through, the source matcher does not panic and only proposes matches that are there. *)
Fixpoint seeks32 (m : mode) (s : src_matcher) (src : list Z) (l : list (Z * Z * Z)) : res src_matcher :=
  match l with [] => Ok s | (cur, h, p) :: r => do s <- add_start_positions32 m s cur src; seeks32 m (sm_set_fwd s h p) src r end.
Lemma sm_tot32_fwd src trgt s h p : sm_tot32 src trgt s -> sm_tot32 src trgt (sm_set_fwd s h p).
Proof. intro H. exact H. Qed.
Theorem C103_unchecked_window_safe : forall c src start trgt hist, match sc_win c with Some n => n <= 2 ^ 31 | None => True end -> zlen src < 2 ^ 31 -> zlen trgt < 2 ^ 31 ->
  0 <= start <= zlen trgt -> Forall (fun x => 0 <= fst (fst x) <= zlen trgt) hist ->
  exists s0 s, src_build32 Release c src start trgt = Ok s0 /\ seeks32 Release s0 src hist = Ok s /\
    forall h p, 0 <= h < 2 ^ 32 -> 0 <= p -> p + 9 <= zlen trgt -> exists r, find_best_src_match Release (sm_set_fwd s h p) src trgt = Ok r /\
      forall ss pre post, r = Some (ss, pre, post) -> 0 <= pre /\ pre <= ss /\ pre <= p /\ 9 <= post /\ ss + post <= zlen src /\ p + post <= zlen trgt /\ sub src (ss - pre) (pre + post) = sub trgt (p - pre) (pre + post).
Proof.
  intros c src start trgt hist Hw Hls Hlt Hst Hh. destruct (build32 Release c src start trgt Hw Hls Hlt Hst) as (s0 & -> & T & _).
  destruct (add_start32_total Release src trgt s0 start T Hls Hlt Hst ltac:(discriminate)) as (s & E & T' & _). exists s.
  assert (G : forall l s, Forall (fun x => 0 <= fst (fst x) <= zlen trgt) l -> sm_tot32 src trgt s -> exists s', seeks32 Release s src l = Ok s' /\ sm_tot32 src trgt s').
  { clear - Hls Hlt. induction l as [|[[cur h] p] l IH]; intros s Hl T; cbn [seeks32]; [eauto|]. apply Forall_cons_iff in Hl as [H1 H2]. cbn [fst] in H1.
    destruct (add_start32_total Release src trgt s cur T Hls Hlt H1 ltac:(discriminate)) as (s1 & -> & T1 & _). cbn [bind]. apply IH; [exact H2|exact T1]. }
  rewrite E. destruct (G hist s Hh T') as (s' & E' & T''). exists s'. split; [reflexivity|]. split; [exact E'|]. intros h p Hhh Hp Hpl. destruct T'' as (S1 & S3 & S4 & _).
  unfold find_best_src_match. cbn [sm_set_fwd sm_table sm_hash sm_pos sm_step]. rewrite (table_get_total 32) by assumption. cbn [bind].
  destruct (bucket_get _ _) as [q|] eqn:Eb; [|eexists; split; [reflexivity|discriminate]]. apply bucket_get_some in Eb as [E1 E2]. specialize (S4 _ E1). rewrite <- E2 in S4. cbv zeta.
  destruct (extend_src_match Release src (q * sm_step s') trgt p) as [[[pre post]|]| | |] eqn:Ex; cbn [bind].
  - eexists. split; [reflexivity|]. intros ss pre' post' [= <- <- <-]. apply extend_src_sound in Ex; [|lia|lia]. destruct Ex as (X1 & X2 & X3 & X4 & X5 & X6 & X7 & X8). rewrite X8. repeat split; lia.
  - eexists. split; [reflexivity|discriminate].
  - exfalso. revert Ex. unfold extend_src_match. rewrite !slice_ok by lia. cbn [bind]. destruct (list_eqb _ _); cbn [negb bind]; [|discriminate]. rewrite !usub_ok by lia. discriminate.
  - exfalso. revert Ex. unfold extend_src_match. rewrite !slice_ok by lia. cbn [bind]. destruct (list_eqb _ _); cbn [negb bind]; [|discriminate]. rewrite !usub_ok by lia. discriminate.
  - exfalso. revert Ex. unfold extend_src_match. rewrite !slice_ok by lia. cbn [bind]. destruct (list_eqb _ _); cbn [negb bind]; [|discriminate]. rewrite !usub_ok by lia. discriminate.
Qed.
(** Default settings, a source of 128 MiB and a target of 64 MiB: fine up to 32 MiB of output, then a panic with overflow checks, none without. *)
Example C103_window_example : let src := rep 0 (2 ^ 27) in let trgt := rep 1 (2 ^ 26) in let c := mkSC 3 None in
  exists s, src_build32 Debug c src 0 trgt = Ok s /\
    add_start_positions32 Debug (sm_set_fwd s 1 5) (2 ^ 25 - 1) src = Ok (sm_set_fwd s 1 5) /\ add_start_positions32 Debug (sm_set_fwd s 1 5) (2 ^ 25) src = Panic /\
    exists s0 s', src_build32 Release c src 0 trgt = Ok s0 /\ seeks32 Release s0 src [(2 ^ 25, 1, 5); (2 ^ 26, 1, 5)] = Ok s'.
Proof.
  cbv zeta. generalize (zlen_rep 0 (2 ^ 27)). generalize (rep 0 (2 ^ 27)) as src. intros src Hz. generalize (zlen_rep 1 (2 ^ 26)). generalize (rep 1 (2 ^ 26)) as trgt. intros trgt Ht.
  rewrite Z.max_r in Hz, Ht by lia.
  destruct (C103_checked_window_never_slides (mkSC 3 None) src 0 trgt (2 ^ 25 - 1) 1 5 I ltac:(lia) ltac:(lia) ltac:(cbn [half_window32 sc_win]; lia) ltac:(lia) ltac:(lia)) as (s & E & A).
  destruct (C103_checked_window_never_slides (mkSC 3 None) src 0 trgt (2 ^ 25) 1 5 I ltac:(lia) ltac:(lia) ltac:(cbn [half_window32 sc_win]; lia) ltac:(lia) ltac:(lia)) as (s1 & E1 & B).
  rewrite E in E1. injection E1 as <-. unfold hash_end in A, B. cbv zeta in A, B. rewrite Hz in A, B. exists s. split; [exact E|]. split; [rewrite A; reflexivity|]. split; [rewrite B; reflexivity|].
  assert (F : Forall (fun x : Z * Z * Z => 0 <= fst (fst x) <= zlen trgt) [(2 ^ 25, 1, 5); (2 ^ 26, 1, 5)]) by (constructor; [cbn [fst]; lia|constructor; [cbn [fst]; lia|constructor]]).
  destruct (C103_unchecked_window_safe (mkSC 3 None) src 0 trgt _ I ltac:(lia) ltac:(lia) ltac:(lia) F) as (s0 & s' & X & Y & _). exists s0, s'. split; [exact X|exact Y].
Qed.
Print Assumptions C103_rolling_equals_fresh.
Print Assumptions C103_table_sound.
Print Assumptions C103_checked_window_never_slides.
Print Assumptions C103_unchecked_window_safe.
