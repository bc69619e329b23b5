(** Searching the source for the bytes that follow. Property C106. *)
From Verif Require Import Base Spec SpecEnc MCommon MHasher MHashmap MTrgtMatcher MSrcMatcher MEncInner MEncode MLevels SpecApi PBase PHasher PHashmap PEncInner PTotal PFind TMatch TMiss TSearch.
From Coq Require Import Sorted.
Ltac Zify.zify_post_hook ::= idtac.
Arguments Z.add : simpl never.
Arguments Z.sub : simpl never.
Arguments Z.mul : simpl never.
Arguments Z.pow : simpl never.
Arguments Z.div : simpl never.
Arguments Z.modulo : simpl never.

(** ** Specification *)
(** The checksum of the nine bytes at [p], and its slot in a table of [2 ^ bits] slots. *)
Definition nine_hash (l : list Z) (p : Z) : Z := calculate_large_checksum (sub l p 9).
Definition large_slot (bits h : Z) : Z := Z.lxor (h / 2 ^ (64 - bits)) (h mod 2 ^ bits).
(** How far source at [p] and target at [cur] agree, to the right and to the left. *)
Definition agree_right (src : list Z) (p : Z) (trgt : list Z) (cur : Z) : Z := lcp (drop p src) (drop cur trgt).
Definition agree_left (src : list Z) (p : Z) (trgt : list Z) (cur : Z) : Z := lcp (rev (take p src)) (rev (take cur trgt)).
(** What a search at [cur] answers, given the indexed positions: the lowest one (they are listed so) in the slot of the nine bytes at [cur], if the nine bytes there are the same; with it how far the match
    extends to the left (never to the first byte of source or target) and to the right. *)
Definition src_search (bits : Z) (src trgt indexed : list Z) (cur : Z) : option (Z * Z * Z) :=
  match find (fun p => large_slot bits (nine_hash src p) =? large_slot bits (nine_hash trgt cur)) indexed with
  | Some p => if list_eqb (sub src p 9) (sub trgt cur 9) then Some (p, Z.max 0 (Z.min (agree_left src p trgt cur) (Z.min p cur - 1)), agree_right src p trgt cur) else None
  | None => None
  end.
(** The settings: step, size of the window of the source that is indexed at once. *)
Definition step_of (c : src_config) : Z := Z.max (sc_step c) 1.
Definition win_size (c : src_config) : Z := match sc_win c with Some n => if n <=? 2 ^ 63 then Z.max (2 ^ Z.log2_up n) (2 ^ 20) else 2 ^ 20 | None => 2 ^ 26 end.
(** The logarithm of the number of slots. *)
Definition slot_bits (c : src_config) (n : Z) : Z := Z.max 3 (Z.log2_up (Z.min (2 ^ Z.log2_up n / 2) (win_size c) / step_of c + 1)) - 1.
(** The multiples of the step in [lo, hi), ascending. *)
Definition range (lo hi : Z) : list Z := map (fun k => lo + Z.of_nat k) (seq 0 (Z.to_nat (hi - lo))).
Definition multiples (step lo hi : Z) : list Z := filter (fun p => p mod step =? 0) (range lo hi).
Definition round_down (p step : Z) : Z := p / step * step.
(** Where hashing stops. *)
Definition hash_stop (step : Z) (src : list Z) : Z := round_down (Z.max 0 (zlen src - 9)) step.
(** The positions indexed of a window [lo, hi): all multiples of the step, but for steps below 9 the last nine positions are left out. *)
Definition indexed_in (step lo hi : Z) : list Z := multiples step lo (if 9 <=? step then hi else round_down (Z.max 0 (hi - 9)) step).
(** The window for the position [cur] of the target, when the search begins at [start]. *)
Definition src_window (c : src_config) (src trgt : list Z) (start cur : Z) : option (Z * Z) :=
  let half := win_size c / 2 in let e := hash_stop (step_of c) src in
  if cur <? half then Some (0, Z.min (win_size c) e)
  else if e <=? 0 then None
  else let s := round_down (Z.min ((cur * zlen src) mod 2 ^ 64 / zlen trgt + half) e) (step_of c) in
    if (s <=? 0) || (s <=? start) then None else Some (round_down (Z.max start (s - win_size c)) (step_of c), s).
(** The positions indexed by windows for the positions [added] of the target, newest first. *)
Definition indexed_by (c : src_config) (src trgt : list Z) (start : Z) (added : list Z) : list Z :=
  flat_map (fun cur => match src_window c src trgt start cur with Some (lo, hi) => indexed_in (step_of c) lo hi | None => [] end) added.

(** ** Lists of positions *)
Lemma range_nil lo hi : hi <= lo -> range lo hi = [].
Proof. intro H. unfold range. replace (Z.to_nat (hi - lo)) with O by lia. reflexivity. Qed.
Lemma range_app lo mid hi : lo <= mid <= hi -> range lo hi = range lo mid ++ range mid hi.
Proof.
  intro H. unfold range. replace (Z.to_nat (hi - lo)) with (Z.to_nat (mid - lo) + Z.to_nat (hi - mid))%nat by lia. rewrite seq_app, map_app. f_equal. cbn [Nat.add].
  rewrite <- (Nat.add_0_r (Z.to_nat (mid - lo))) at 1. generalize (Z.to_nat (hi - mid)) 0%nat. intro n. induction n as [|n IH]; intro k; cbn [seq map]; [reflexivity|]. f_equal; [lia|]. rewrite <- IH. f_equal. f_equal. lia.
Qed.
Lemma range_one p : range p (p + 1) = [p].
Proof. unfold range. replace (Z.to_nat (p + 1 - p)) with 1%nat by lia. cbn [seq map]. f_equal. lia. Qed.
Lemma in_range p lo hi : In p (range lo hi) <-> lo <= p < hi.
Proof.
  unfold range. rewrite in_map_iff. split.
  - intros (k & <- & Hk). apply in_seq in Hk. lia.
  - intro H. exists (Z.to_nat (p - lo)). split; [lia|]. apply in_seq. lia.
Qed.
Lemma in_multiples p step lo hi : In p (multiples step lo hi) <-> lo <= p < hi /\ p mod step = 0.
Proof. unfold multiples. rewrite filter_In, in_range, Z.eqb_eq. reflexivity. Qed.
Lemma multiples_nil step lo hi : hi <= lo -> multiples step lo hi = [].
Proof. intro H. unfold multiples. rewrite range_nil by exact H. reflexivity. Qed.
Lemma multiples_app step lo mid hi : lo <= mid <= hi -> multiples step lo hi = multiples step lo mid ++ multiples step mid hi.
Proof. intro H. unfold multiples. rewrite (range_app lo mid hi H). apply filter_app. Qed.
Lemma multiples_one step lo hi : 1 <= step -> lo mod step = 0 -> lo < hi <= lo + step -> multiples step lo hi = [lo].
Proof.
  intros Hs Hm H. rewrite (multiples_app step lo (lo + 1) hi) by lia. unfold multiples at 1. rewrite range_one. cbn [filter]. rewrite Hm. change (0 =? 0) with true. cbn [app]. f_equal.
  unfold multiples. apply filter_none. intros x Hx. apply in_range in Hx. apply Z.eqb_neq. intro E. apply Z.mod_divide in E; [|lia]. apply Z.mod_divide in Hm; [|lia]. destruct E as [a ->], Hm as [b ->]. assert (b < a) by nia. assert (a < b + 1) by nia. lia.
Qed.
Lemma align_round p step : 1 <= step -> align p step = round_down p step.
Proof. intro H. unfold round_down. rewrite align_mul by exact H. lia. Qed.

(** ** The table *)
Definition entry (step : Z) (src : list Z) (p : Z) : Z * Z := (nine_hash src p, p / step).
Lemma nine_range l p : 0 <= nine_hash l p < 2 ^ 64.
Proof. apply large_range. Qed.
Lemma src_store_holds m s src p l s' : table_good 64 (sm_table s) -> holds (sm_table s) (map (entry (sm_step s) src) l) -> src_store m s (nine_hash src p) p = Ok s' ->
  exists t, s' = sm_set_table s t /\ table_good 64 t /\ holds t (map (entry (sm_step s) src) (p :: l)) /\ t_shift t = t_shift (sm_table s).
Proof.
  intros G H E. unfold src_store in E. apply bind_ok in E as (u & _ & E).
  destruct (table_insert_ok 64 (sm_table s) _ (nine_hash src p) (p / sm_step s) G H (nine_range src p)) as (t & r & Et & G1 & G2 & _ & _). rewrite Et in E. cbn [bind] in E. injection E as <-.
  exists t. split; [reflexivity|]. split; [exact G1|]. split; [exact G2|]. unfold table_insert in Et. destruct (_ && _); [|discriminate Et]. destruct (bucket_set _ _ _). injection Et as <- _. reflexivity.
Qed.
Lemma set_table_twice s t t' : sm_set_table (sm_set_table s t) t' = sm_set_table s t'.
Proof. reflexivity. Qed.
Lemma hash_steps_holds m src lo : forall n s l s', 1 <= sm_step s -> lo mod sm_step s = 0 -> 0 <= lo -> table_good 64 (sm_table s) -> holds (sm_table s) (map (entry (sm_step s) src) l) -> hash_steps n m s src lo = Ok s' ->
  exists t, s' = sm_set_table s t /\ table_good 64 t /\ holds t (map (entry (sm_step s) src) (map (fun k => lo + Z.of_nat k * sm_step s) (seq 0 n) ++ l)) /\ t_shift t = t_shift (sm_table s).
Proof.
  induction n as [|n IH]; intros s l s' Hs Hm Hlo G H E.
  - cbn [hash_steps] in E. injection E as <-. exists (sm_table s). split; [destruct s; reflexivity|]. split; [exact G|]. split; [exact H|reflexivity].
  - cbn [hash_steps] in E. cbv zeta in E. apply bind_ok in E as (w & Ew & E). apply bind_ok in E as (s1 & E1 & E). apply slice_inv in Ew as (_ & _ & ->).
    match type of E1 with context [sub src ?p ?k] => replace k with 9 in E1 by lia; fold (nine_hash src p) in E1 end.
    destruct (src_store_holds _ _ _ _ _ _ G H E1) as (t & -> & G1 & H1 & Sh). destruct (IH (sm_set_table s t) _ s' Hs Hm Hlo G1 H1 E) as (t' & -> & G2 & H2 & Sh').
    exists t'. split; [apply set_table_twice|]. split; [exact G2|]. split; [|cbn [sm_set_table sm_table] in Sh'; congruence].
    rewrite seq_S, (map_app (fun k => lo + Z.of_nat k * sm_step s)), <- app_assoc. exact H2.
Qed.
Lemma hash_roll_holds m src lo : forall n s h l s', 1 <= sm_step s -> 0 <= lo -> table_good 64 (sm_table s) -> holds (sm_table s) (map (entry (sm_step s) src) l) ->
  (n = O \/ lo + Z.of_nat n + 9 <= zlen src) -> (n = O \/ h = nine_hash src (lo + Z.of_nat n)) -> hash_roll n m s src lo h = Ok s' ->
  exists t, s' = sm_set_table s t /\ table_good 64 t /\ holds t (map (entry (sm_step s) src) (multiples (sm_step s) lo (lo + Z.of_nat n) ++ l)) /\ t_shift t = t_shift (sm_table s).
Proof.
  induction n as [|n IH]; intros s h l s' Hs Hlo G H Hz Hh E.
  - cbn [hash_roll] in E. injection E as <-. exists (sm_table s). split; [destruct s; reflexivity|]. split; [exact G|]. split; [|reflexivity]. rewrite multiples_nil by lia. exact H.
  - destruct Hz as [Hz|Hz]; [discriminate Hz|]. destruct Hh as [Hh|Hh]; [discriminate Hh|]. cbn [hash_roll] in E. cbv zeta in E. apply bind_ok in E as (old & Ho & E). apply bind_ok in E as (new & Hn & E).
    assert (Hp : lo + Z.of_nat (S n) = lo + Z.of_nat n + 1) by lia. rewrite Hp in *. set (q := lo + Z.of_nat n) in *.
    destruct (C38_rolling_equals_fresh src q new old) as [C38 _]. destruct (C38 ltac:(lia) ltac:(lia) Hn Ho) as [_ Eb]. unfold nine_hash in Hh. rewrite Hh, Eb in E. fold (nine_hash src q) in E.
    rewrite (multiples_app (sm_step s) lo q (q + 1)) by lia. unfold multiples at 2. rewrite range_one. cbn [filter]. apply bind_ok in E as (s1 & E1 & E).
    destruct (q mod sm_step s =? 0).
    + destruct (src_store_holds _ _ _ _ _ _ G H E1) as (t & -> & G1 & H1 & Sh). destruct (IH (sm_set_table s t) _ _ s' Hs Hlo G1 H1 ltac:(right; unfold q in *; lia) ltac:(right; reflexivity) E) as (t' & -> & G2 & H2 & Sh').
      exists t'. split; [apply set_table_twice|]. split; [exact G2|]. split; [|cbn [sm_set_table sm_table] in Sh'; congruence]. rewrite <- app_assoc. exact H2.
    + injection E1 as <-. rewrite app_nil_r. exact (IH s _ _ s' Hs Hlo G H ltac:(right; unfold q in *; lia) ltac:(right; reflexivity) E).
Qed.
Lemma steps_multiples step lo : 1 <= step -> lo mod step = 0 -> forall n, map (fun k => lo + Z.of_nat k * step) (seq 0 n) = multiples step lo (lo + Z.of_nat n * step).
Proof.
  intros Hs Hm. induction n as [|n IH]; [cbn [seq map]; rewrite multiples_nil by lia; reflexivity|]. rewrite seq_S, map_app, IH. cbn [Nat.add map].
  rewrite (multiples_app step lo (lo + Z.of_nat n * step) (lo + Z.of_nat (S n) * step)) by nia. f_equal. symmetry. apply multiples_one; [exact Hs|rewrite Z_mod_plus_full; exact Hm|nia].
Qed.
Lemma steps_to step lo hi : 1 <= step -> lo mod step = 0 -> map (fun k => lo + Z.of_nat k * step) (seq 0 (Z.to_nat ((hi - lo + step - 1) / step))) = multiples step lo hi.
Proof.
  intros Hs Hm. rewrite steps_multiples by assumption. destruct (Z_lt_le_dec lo hi) as [H|H].
  - set (q := (hi - lo + step - 1) / step). pose proof (Z.mul_div_le (hi - lo + step - 1) step ltac:(lia)) as B1. pose proof (Z.mul_succ_div_gt (hi - lo + step - 1) step ltac:(lia)) as B2. fold q in B1, B2.
    assert (Hq : 1 <= q) by nia. rewrite Z2Nat.id by lia. rewrite (multiples_app step lo (lo + (q - 1) * step) (lo + q * step)), (multiples_app step lo (lo + (q - 1) * step) hi) by nia. f_equal.
    assert (M : (lo + (q - 1) * step) mod step = 0) by (rewrite Z_mod_plus_full; exact Hm). rewrite !multiples_one by (try assumption; nia). reflexivity.
  - assert (Hq : (hi - lo + step - 1) / step < 1) by (apply Z.div_lt_upper_bound; lia). rewrite !multiples_nil; [reflexivity|lia|]. replace (Z.to_nat _) with O by lia. lia.
Qed.
(** ** Windows *)
Lemma round_bounds p step : 1 <= step -> 0 <= p -> 0 <= round_down p step <= p /\ round_down p step mod step = 0 /\ p < round_down p step + step.
Proof. intros Hs Hp. rewrite <- align_round by exact Hs. apply align_bounds; assumption. Qed.
Lemma win_size_half c : win_size c = 2 * (win_size c / 2) /\ 2 ^ 20 <= win_size c.
Proof.
  assert (P : forall k, 20 <= k -> 2 ^ k = 2 * (2 ^ k / 2) /\ 2 ^ 20 <= 2 ^ k).
  { intros k Hk. split; [|apply Z.pow_le_mono_r; lia]. replace k with (Z.succ (k - 1)) by lia. rewrite Z.pow_succ_r by lia. rewrite (Z.mul_comm 2 (2 ^ (k - 1))), Z.div_mul by lia. lia. }
  unfold win_size. destruct (sc_win c) as [n|]; [|apply (P 26); lia]. destruct (n <=? 2 ^ 63); [|apply (P 20); lia].
  destruct (Z.max_spec (2 ^ Z.log2_up n) (2 ^ 20)) as [[_ ->]|[H ->]]; [apply (P 20); lia|]. apply P. apply Z.nlt_ge. intro L.
  assert (2 ^ Z.log2_up n < 2 ^ 20) by (apply Z.pow_lt_mono_r; lia). lia.
Qed.
Record sm_cfg (c : src_config) (src trgt : list Z) (start : Z) (s : src_matcher) : Prop := mkSCfg {
  sg_step : sm_step s = step_of c;
  sg_max : sm_max s = Z.max 0 (zlen trgt - 9);
  sg_slen : sm_src_len s = zlen src;
  sg_tlen : sm_trgt_len s = zlen trgt;
  sg_half : sm_half s = win_size c / 2;
  sg_stop : sm_max_end s = hash_stop (step_of c) src;
  sg_wend : sm_win_end s = 0;
  sg_mm : sm_max_match s = start;
  sg_good : table_good 64 (sm_table s);
  sg_bits : 64 - t_shift (sm_table s) = slot_bits c (zlen src)
}.
Lemma step_pos c : 1 <= step_of c.
Proof. unfold step_of. lia. Qed.
Lemma to_u64_mod64 v : to_u64 v = v mod 2 ^ 64.
Proof. reflexivity. Qed.
Lemma window_exact m c src trgt start s cur r : sm_cfg c src trgt start s -> 0 <= start -> window_range m s cur = Ok r -> r = src_window c src trgt start cur.
Proof.
  intros C Hst H. pose proof (step_pos c) as Hs. destruct (win_size_half c) as [W1 W2]. destruct C as [C1 C2 C3 C4 C5 C6 C7 C8 C9 C10]. unfold window_range in H. unfold src_window. cbv zeta.
  rewrite C1, C3, C4, C5, C6, C7, C8 in H. set (half := win_size c / 2) in *. set (e := hash_stop (step_of c) src) in *. rewrite W1. clearbody half e. clear W1.
  destruct (cur <? half); [injection H as <-; reflexivity|]. replace (e <=? 0) with (0 >=? e) by lia. destruct (0 >=? e); [injection H as <-; reflexivity|].
  apply bind_ok in H as (p & Ep & H). assert (p = (cur * zlen src) mod 2 ^ 64).
  { rewrite <- to_u64_mod64. unfold arith in Ep. destruct (to_u64 (cur * zlen src) =? cur * zlen src) eqn:E; [injection Ep as <-; lia|]. destruct m; [discriminate Ep|injection Ep as <-; reflexivity]. }
  subst p. cbv zeta in H. rewrite !align_round in H by exact Hs. set (sc := round_down (Z.min ((cur * zlen src) mod 2 ^ 64 / zlen trgt + half) e) (step_of c)) in *. destruct ((sc <=? 0) || (sc <=? start)); injection H as <-; [reflexivity|].
  do 3 f_equal. lia.
Qed.
Lemma stop_bounds c src : 0 <= hash_stop (step_of c) src /\ (0 < hash_stop (step_of c) src -> hash_stop (step_of c) src + 9 <= zlen src) /\ hash_stop (step_of c) src mod step_of c = 0.
Proof. pose proof (step_pos c) as Hs. unfold hash_stop. destruct (round_bounds (Z.max 0 (zlen src - 9)) (step_of c) Hs ltac:(lia)) as (A & B & D). split; [lia|]. split; [lia|exact B]. Qed.
Lemma window_bounds c src trgt start cur lo hi : 0 <= start -> src_window c src trgt start cur = Some (lo, hi) -> 0 <= lo /\ lo mod step_of c = 0 /\ 0 <= hi <= hash_stop (step_of c) src.
Proof.
  intros Hst. pose proof (step_pos c) as Hs. destruct (win_size_half c) as [W1 W2]. destruct (stop_bounds c src) as (B1 & _). unfold src_window. cbv zeta. destruct (cur <? win_size c / 2).
  { intro H. injection H as <- <-. split; [lia|]. split; [apply Z.mod_0_l; lia|lia]. }
  destruct (hash_stop (step_of c) src <=? 0); [discriminate|]. set (sc := Z.min ((cur * zlen src) mod 2 ^ 64 / zlen trgt + win_size c / 2) (hash_stop (step_of c) src)).
  destruct (_ || _) eqn:E; [discriminate|]. intro H. injection H as <- <-.
  destruct (round_bounds (Z.max start (round_down sc (step_of c) - win_size c)) (step_of c) Hs ltac:(lia)) as (A1 & A2 & _). split; [lia|]. split; [exact A2|].
  assert (0 <= sc). { assert (0 <= (cur * zlen src) mod 2 ^ 64 / zlen trgt); [|lia]. pose proof (Z.mod_pos_bound (cur * zlen src) (2 ^ 64) ltac:(lia)). pose proof (zlen_nonneg trgt). destruct (Z.eq_dec (zlen trgt) 0) as [->|]; [rewrite Zdiv_0_r; lia|apply Z.div_pos; lia]. }
  destruct (round_bounds sc (step_of c) Hs ltac:(lia)) as (D1 & _). lia.
Qed.
Lemma add_start_exact m c src trgt start s cur l s' : sm_cfg c src trgt start s -> 0 <= start -> holds (sm_table s) (map (entry (step_of c) src) l) -> sm_next s <= cur -> add_start_positions m s cur src = Ok s' ->
  exists t next, s' = sm_set_next (sm_set_table s t) next /\ table_good 64 t /\ t_shift t = t_shift (sm_table s) /\
    holds t (map (entry (step_of c) src) (indexed_by c src trgt start [cur] ++ l)) /\
    next = match src_window c src trgt start cur with Some (lo, hi) => if hash_stop (step_of c) src <=? hi then USIZE_MAX else cur + win_size c / 2 | None => sm_next s end.
Proof.
  intros C Hst H Hn E. unfold add_start_positions in E. replace (cur <? sm_next s) with false in E by lia. apply bind_ok in E as (r & Er & E). apply (window_exact m c src trgt start) in Er; [|exact C|exact Hst]. subst r.
  pose proof (step_pos c) as Hs. cbn [indexed_by flat_map]. destruct (src_window c src trgt start cur) as [[lo hi]|] eqn:W.
  - destruct (window_bounds _ _ _ _ _ _ _ Hst W) as (B1 & B2 & B3). destruct (stop_bounds c src) as (T1 & T2 & T3). pose proof C as [C1 C2 C3 C4 C5 C6 C7 C8 C9 C10]. rewrite app_nil_r. unfold indexed_in.
    apply bind_ok in E as (u & _ & E). cbv zeta in E. rewrite C5, C6 in E.
    set (nx := if hi >=? hash_stop (step_of c) src then USIZE_MAX else cur + win_size c / 2) in E. 
    assert (G : exists t, s' = sm_set_table (sm_set_next s nx) t /\ table_good 64 t /\ holds t (map (entry (step_of c) src) (multiples (step_of c) lo (if 9 <=? step_of c then hi else round_down (Z.max 0 (hi - 9)) (step_of c)) ++ l)) /\ t_shift t = t_shift (sm_table s)).
    { change (sm_step (sm_set_next s nx)) with (sm_step s) in E. rewrite C1 in E. destruct (step_of c >=? 9) eqn:E9.
      - replace (9 <=? step_of c) with true by lia. apply (hash_steps_holds m src lo _ _ l) in E; cbn [sm_set_next sm_step sm_table] in *; rewrite ?C1 in *; auto. rewrite steps_to in E by assumption. exact E.
      - replace (9 <=? step_of c) with false by lia. rewrite align_round in E by exact Hs. destruct (round_bounds (Z.max 0 (hi - 9)) (step_of c) Hs ltac:(lia)) as (L1 & L2 & L3).
        set (last := round_down (Z.max 0 (hi - 9)) (step_of c)) in *. apply bind_ok in E as (w & Ew & E). apply slice_inv in Ew as (W1 & W2 & ->).
        apply (hash_roll_holds m src lo _ _ _ l) in E; cbn [sm_set_next sm_step sm_table] in *; rewrite ?C1 in *; auto.
        + replace (multiples (step_of c) lo last) with (multiples (step_of c) lo (lo + Z.of_nat (Z.to_nat (last - lo)))); [exact E|]. destruct (Z_le_gt_dec lo last) as [D|D]; [f_equal; lia|]. rewrite !multiples_nil by lia. reflexivity.
        + lia.
        + destruct (Z_le_gt_dec last lo) as [D|D]; [left; lia|right]. unfold nine_hash. rewrite large_take, take_sub by lia. f_equal. f_equal; lia. }
    destruct G as (t & -> & G1 & G2 & G3). exists t, nx. split; [reflexivity|]. split; [exact G1|]. split; [exact G3|]. split; [exact G2|].
    unfold nx. replace (hi >=? hash_stop (step_of c) src) with (hash_stop (step_of c) src <=? hi) by lia. reflexivity.
  - injection E as <-. exists (sm_table s), (sm_next s). split; [destruct s; reflexivity|]. split; [apply C|]. split; [reflexivity|]. split; [exact H|reflexivity].
Qed.

(** ** One search *)
Lemma lcp_takes : forall a b k, lcp (take k a) (take k b) = Z.max 0 (Z.min (lcp a b) k).
Proof.
  intros a b k. unfold take. destruct (Z_le_gt_dec k 0) as [H|H].
  { replace (Z.to_nat k) with O by lia. cbn [firstn lcp]. pose proof (proj1 (lcp_bound a b)). lia. }
  rewrite <- (Z2Nat.id k) at 3 by lia. generalize (Z.to_nat k) as n. clear k H. intro n. revert a b. induction n as [|n IH]; intros a b.
  - cbn [firstn lcp]. pose proof (proj1 (lcp_bound a b)). lia.
  - destruct a as [|x a], b as [|y b]; cbn [firstn lcp]; try lia. destruct (x =? y); [|lia]. rewrite IH. pose proof (proj1 (lcp_bound a b)). lia.
Qed.
Lemma extend_exact m src p trgt cur : 0 <= p -> p + 9 <= zlen src -> 0 <= cur -> cur + 9 <= zlen trgt -> zlen src < 2 ^ 64 -> zlen trgt < 2 ^ 64 ->
  extend_src_match m src p trgt cur = Ok (if list_eqb (sub src p 9) (sub trgt cur 9) then Some (Z.max 0 (Z.min (agree_left src p trgt cur) (Z.min p cur - 1)), agree_right src p trgt cur - 9) else None).
Proof.
  intros Hp Hs Hc Ht Hl1 Hl2. unfold extend_src_match. rewrite !slice_ok by lia. cbn [bind]. replace (p + 9 - p) with 9 by lia. replace (cur + 9 - cur) with 9 by lia.
  destruct (list_eqb (sub src p 9) (sub trgt cur 9)) eqn:E; cbn [negb]; [|reflexivity]. apply list_eqb_eq in E. rewrite !usub_ok by lia. cbn [bind]. cbv zeta. do 3 f_equal.
  - rewrite lcp_takes. reflexivity.
  - unfold agree_right. assert (S : forall (l : list Z) q, 0 <= q -> drop q l = sub l q 9 ++ drop (q + 9) l) by (intros l q Hq; unfold sub; rewrite <- (drop_drop 9 q l) by lia; symmetry; apply take_drop).
    rewrite (S src p Hp), (S trgt cur Hc), E, lcp_app, zlen_sub by lia. unfold sub. rewrite lcp_takes.
    destruct (lcp_bound (drop (p + 9) src) (drop (cur + 9) trgt)) as [A1 A2]. rewrite (zlen_drop (p + 9)) in A1 by lia. rewrite (zlen_drop (cur + 9)) in A2 by lia. lia.
Qed.
Lemma find_map {A B} (f : B -> bool) (g : A -> B) l : find f (map g l) = match find (fun x => f (g x)) l with Some x => Some (g x) | None => None end.
Proof. induction l as [|x l IH]; cbn [map find]; [reflexivity|]. destruct (f (g x)); [reflexivity|exact IH]. Qed.
Lemma bucket_large t h : table_good 64 t -> 0 <= h -> bucket_idx t h = large_slot (64 - t_shift t) h.
Proof.
  intros (b & Hb & H1 & H2 & H3) Hh. unfold bucket_idx, large_slot. rewrite H1, H3, land_mask by lia. replace (64 - (64 - (64 - b))) with (64 - b) by lia. replace (64 - (64 - b)) with b by lia. rewrite Z.shiftr_div_pow2 by lia. reflexivity.
Qed.
Definition indexable_pos (step : Z) (src : list Z) (p : Z) : Prop := 0 <= p /\ p mod step = 0 /\ p + 9 <= zlen src.
Lemma src_find_exact m c src trgt start s l : sm_cfg c src trgt start s -> holds (sm_table s) (map (entry (step_of c) src) l) -> Forall (indexable_pos (step_of c) src) l ->
  sm_hash s = nine_hash trgt (sm_pos s) -> 0 <= sm_pos s -> sm_pos s + 9 <= zlen trgt -> zlen src < 2 ^ 64 -> zlen trgt < 2 ^ 64 ->
  find_best_src_match m s src trgt = Ok (src_search (slot_bits c (zlen src)) src trgt l (sm_pos s)).
Proof.
  intros C H F Hh Hp Hl Z1 Z2. pose proof (step_pos c) as Hs. unfold find_best_src_match. 
  assert (Hnn : forall x, In x (map (entry (step_of c) src) l) -> 0 <= snd x).
  { intros x Hx. apply in_map_iff in Hx as (p & <- & Hx). rewrite Forall_forall in F. cbn [entry snd]. apply Z.div_pos; [apply (F p Hx)|lia]. }
  rewrite (table_get_ok 64 _ _ (sm_hash s) (sg_good _ _ _ _ _ C) H Hnn) by (rewrite Hh; apply nine_range).
  cbn [bind]. rewrite find_map. unfold src_search. rewrite Hh.
  rewrite (find_ext_in _ (fun p => large_slot (slot_bits c (zlen src)) (nine_hash src p) =? large_slot (slot_bits c (zlen src)) (nine_hash trgt (sm_pos s)))).
  2:{ intros x _. unfold at_bucket. cbn [entry fst]. rewrite !(bucket_large _ _ (sg_good _ _ _ _ _ C)) by apply nine_range. rewrite (sg_bits _ _ _ _ _ C). reflexivity. }
  destruct (find _ l) as [p|] eqn:E; [|reflexivity]. apply find_some in E as [Hi _]. rewrite Forall_forall in F. destruct (F p Hi) as (F1 & F2 & F3). unfold entry. rewrite (sg_step _ _ _ _ _ C).
  destruct (nine_hash src p =? nine_hash trgt (sm_pos s)) eqn:Eh.
  - replace (p / step_of c * step_of c) with p by (pose proof (Z.div_mod p (step_of c) ltac:(lia)); lia). rewrite extend_exact by lia. cbn [bind].
    destruct (list_eqb (sub src p 9) (sub trgt (sm_pos s) 9)); [|reflexivity]. do 3 f_equal. lia.
  - destruct (list_eqb (sub src p 9) (sub trgt (sm_pos s) 9)) eqn:El; [|reflexivity]. apply list_eqb_eq in El. unfold nine_hash in Eh. rewrite El, Z.eqb_refl in Eh. discriminate.
Qed.
Lemma indexed_ok c src trgt start added : 0 <= start -> Forall (indexable_pos (step_of c) src) (indexed_by c src trgt start added).
Proof.
  intro Hst. apply Forall_forall. intros p Hp. apply in_flat_map in Hp as (cur & _ & Hp). destruct (src_window c src trgt start cur) as [[lo hi]|] eqn:W; [|destruct Hp].
  destruct (window_bounds _ _ _ _ _ _ _ Hst W) as (B1 & B2 & B3). destruct (stop_bounds c src) as (T1 & T2 & T3). pose proof (step_pos c) as Hs. unfold indexed_in in Hp. apply in_multiples in Hp as [Hp1 Hp2].
  assert (p < hi). { destruct (9 <=? step_of c); [lia|]. destruct (round_bounds (Z.max 0 (hi - 9)) (step_of c) Hs ltac:(lia)). lia. }
  repeat split; [lia|exact Hp2|]. specialize (T2 ltac:(lia)). lia.
Qed.
Lemma indexed_cons c src trgt start x l : indexed_by c src trgt start (x :: l) = indexed_by c src trgt start [x] ++ indexed_by c src trgt start l.
Proof. unfold indexed_by. cbn [flat_map]. rewrite app_nil_r. reflexivity. Qed.

(** ** Building *)
Lemma log2_next m n k : n <= 2 ^ 63 -> next_power_of_two m n = Ok k -> k = 2 ^ Z.log2_up n.
Proof.
  intros H E. destruct (next_pow2_ok m n H) as (j & Ej & _ & J1 & J0). rewrite Ej in E. injection E as <-. f_equal. destruct (Z_lt_le_dec 1 n); [auto|]. rewrite J0 by lia. symmetry. destruct (Z_le_gt_dec n 0); [apply Z.log2_up_nonpos; lia|apply Z.log2_up_null; lia].
Qed.
Lemma src_build_exact m c src trgt start s : zlen src < 2 ^ 63 -> 0 <= start -> start + 9 < zlen trgt -> src_build m c src start trgt = Ok s ->
  exists t next, s = mkSM (step_of c) (nine_hash trgt start) start (zlen trgt - 9) t (zlen src) (zlen trgt) (win_size c / 2) (hash_stop (step_of c) src) 0 next start /\ sm_cfg c src trgt start s /\
    holds t (map (entry (step_of c) src) (indexed_by c src trgt start [start])) /\
    next = match src_window c src trgt start start with Some (lo, hi) => if hash_stop (step_of c) src <=? hi then USIZE_MAX else start + win_size c / 2 | None => 0 end.
Proof.
  intros Hl Hst Ht H. pose proof (step_pos c) as Hs. destruct (win_size_half c) as [W1 W2]. pose proof (zlen_nonneg src) as Hz. unfold src_build in H. cbv zeta in H. fold (step_of c) in H. apply bind_ok in H as (win & Hw & H).
  assert (Ew : win = win_size c).
  { unfold win_size. destruct (sc_win c) as [n|]; [|injection Hw as <-; reflexivity]. apply bind_ok in Hw as (p & Ep & Hw). injection Hw as <-. unfold MIN_SRC_WIN_SIZE. destruct (n <=? 2 ^ 63) eqn:En; [rewrite (log2_next m n p) by (try exact Ep; lia); reflexivity|].
    unfold next_power_of_two in Ep. replace (n <=? 1) with false in Ep by lia. replace (n >? 2 ^ 63) with true in Ep by lia. destruct m; [discriminate Ep|]. injection Ep as <-. reflexivity. }
  subst win. apply bind_ok in H as ([hash pos] & Hh & H). rewrite Z.max_r in Hh, H by lia. replace (start <? zlen trgt - 9) with true in Hh by lia. apply bind_ok in Hh as (w & Esl & Hh). apply slice_inv in Esl as (_ & _ & ->). injection Hh as <- <-.
  replace (start + 9 - start) with 9 in H by lia. fold (nine_hash trgt start) in H. apply bind_ok in H as (p & Ep & H). pose proof (log2_next m (zlen src) p ltac:(lia) Ep) as ->. apply bind_ok in H as (tb & Etb & H).
  rewrite align_round in H by exact Hs. fold (hash_stop (step_of c) src) in H. rewrite !Z.shiftr_div_pow2 in H, Etb by lia. change (2 ^ 1) with 2 in *.
  set (cap := Z.min (2 ^ Z.log2_up (zlen src) / 2) (win_size c) / step_of c) in *.
  assert (Hcap : 0 <= cap < 2 ^ 63).
  { destruct (next_pow2_ok m (zlen src) ltac:(lia)) as (k & Ek & Hk & _). rewrite Ek in Ep. injection Ep as Ep. pose proof (shiftr1_range k Hk) as R. rewrite Z.shiftr_div_pow2 in R by lia. change (2 ^ 1) with 2 in R. rewrite Ep in R.
    unfold cap. split; [apply Z.div_pos; lia|]. apply Z.div_lt_upper_bound; [lia|]. nia. }
  destruct (table_new_ok m cap false Hcap) as (tb' & Et & Hg & Hb & _). rewrite Etb in Et. injection Et as <-. cbn [table_width] in Hg.
  assert (Hbits : 64 - t_shift tb = slot_bits c (zlen src)).
  { unfold slot_bits. fold cap. unfold table_new, table_bits in Etb. apply bind_ok in Etb as (bits & Eb & Etb). apply bind_ok in Eb as (q & Eq & Eb). pose proof (log2_next m (cap + 1) q ltac:(lia) Eq) as ->.
    assert (Hq : 0 <= Z.log2_up (cap + 1) <= 63). { split; [apply Z.log2_up_nonneg|]. replace 63 with (Z.log2_up (2 ^ 63)) by reflexivity. apply Z.log2_up_le_mono. lia. }
    assert (0 < 2 ^ Z.log2_up (cap + 1)) by (apply Z.pow_pos_nonneg; lia). replace (2 ^ Z.log2_up (cap + 1) =? 0) with false in Eb by lia. rewrite Z.log2_pow2 in Eb by lia. injection Eb as <-.
    rewrite usub_ok in Etb by lia. cbn [bind] in Etb. injection Etb as <-. cbn [t_shift]. lia. }
  match type of H with add_start_positions m ?x _ _ = _ => assert (C0 : sm_cfg c src trgt start x) by (constructor; cbn [sm_step sm_max sm_src_len sm_trgt_len sm_half sm_max_end sm_win_end sm_max_match sm_table]; try reflexivity; [lia|exact Hg|exact Hbits]);
    assert (H0 : holds (sm_table x) (map (entry (step_of c) src) [])) by (intro i; cbn [sm_table map find]; rewrite Hb; reflexivity); pose proof (add_start_exact m c src trgt start x start [] s C0 Hst H0 ltac:(cbn [sm_next]; lia) H) as A end.
  destruct A as (t & next & -> & A1 & A2 & A3 & A4). rewrite app_nil_r in A3. exists t, next. cbn [sm_set_next sm_set_table sm_step sm_hash sm_pos sm_max sm_table sm_src_len sm_trgt_len sm_half sm_max_end sm_win_end sm_next sm_max_match] in *.
  split; [reflexivity|]. split; [|split; [exact A3|exact A4]]. destruct C0 as [C1 C2 C3 C4 C5 C6 C7 C8 C9 C10]. constructor; cbn [sm_step sm_max sm_src_len sm_trgt_len sm_half sm_max_end sm_win_end sm_max_match sm_table] in *; auto. cbn [sm_set_next sm_set_table sm_table]. lia.
Qed.

(** ** Every search *)
(** One window is enough: the search starts in its first half and hashing stops within it. *)
Definition one_window (c : src_config) (src : list Z) (start : Z) : Prop := start < win_size c / 2 /\ hash_stop (step_of c) src <= win_size c.
Definition ssinv (c : src_config) (src trgt : list Z) (start : Z) (e : est) (s : src_matcher) : Prop :=
  sm_cfg c src trgt start s /\ sm_hash s = nine_hash trgt (sm_pos s) /\ sm_pos s + 9 <= zlen trgt /\
  exists added, (exists l, added = l ++ [start]) /\ Forall (fun x => 0 <= x <= e_cur e) added /\ holds (sm_table s) (map (entry (step_of c) src) (indexed_by c src trgt start added)) /\
    (one_window c src start -> added = [start] /\ sm_next s = USIZE_MAX).
Lemma try_keeps_src m src trgt mx e e' : try_match m src trgt mx e = Ok e' -> e_src e' = e_src e /\ e_cur e' = e_cur e.
Proof.
  unfold try_match. intro E. apply bind_ok in E as (e1 & E1 & E). apply try_run_same in E1 as (R1 & R2 & R3 & R4 & R5).
  assert (Fd : forall ops len, e_src (found e1 ops len) = e_src e /\ e_cur (found e1 ops len) = e_cur e) by (intros ops len; cbn [found e_src e_cur]; auto).
  apply bind_ok in E as (o & Eo & E). destruct o as [e2|].
  { injection E as <-. unfold take_run in Eo. destruct (_ && _); [|discriminate Eo]. apply bind_ok in Eo as (w & _ & Eo). apply bind_ok in Eo as (u & _ & Eo). injection Eo as <-. apply Fd. }
  apply bind_ok in E as (o & Es & E). destruct o as [e2|].
  { injection E as <-. unfold try_src in Es. destruct (e_src e1) as [s|]; [|discriminate Es]. cbv zeta in Es. destruct (e_cur e1 + 9 <=? mx); [|discriminate Es]. apply bind_ok in Es as (u & _ & Es). apply bind_ok in Es as (r & _ & Es).
    destruct r as [[[sp pre] post]|]; [|discriminate Es]. destruct (post >=? e_min e1); [|discriminate Es]. apply bind_ok in Es as (st & _ & Es). apply bind_ok in Es as (ops & Ec & Es). apply bind_ok in Es as (ss & _ & Es).
    apply bind_ok in Es as (u1 & _ & Es). apply bind_ok in Es as (u2 & _ & Es). injection Es as <-. apply Fd. }
  apply bind_ok in E as (o & Et & E). destruct o as [e2|].
  { injection E as <-. unfold try_trgt in Et. destruct (e_trgt e1) as [t|]; [|discriminate Et]. cbv zeta in Et. destruct (e_cur e1 + 4 <=? mx); [|discriminate Et]. apply bind_ok in Et as (u & _ & Et). apply bind_ok in Et as (r & _ & Et).
    destruct r as [[st len]|]; [|discriminate Et]. destruct (len >=? e_min e1); [|discriminate Et]. apply bind_ok in Et as (u1 & _ & Et). apply bind_ok in Et as (u2 & _ & Et). injection Et as <-. apply Fd. }
  injection E as <-. cbn [e_src e_cur]. auto.
Qed.
Lemma roll_large_len : forall n l h p r, roll_large n l h p = Ok r -> n = O \/ p + Z.of_nat n + 9 <= zlen l.
Proof.
  induction n as [|n IH]; intros l h p r H; [auto|right]. cbn [roll_large] in H. apply bind_ok in H as (o & Ho & H). apply bind_ok in H as (w & Hw & H). apply IH in H. apply idx_inv in Hw. lia.
Qed.
Lemma cfg_next c src trgt start s t n : sm_cfg c src trgt start s -> table_good 64 t -> t_shift t = t_shift (sm_table s) -> sm_cfg c src trgt start (sm_set_next (sm_set_table s t) n).
Proof. intros [C1 C2 C3 C4 C5 C6 C7 C8 C9 C10] G Sh. constructor; cbn [sm_set_next sm_set_table sm_step sm_max sm_src_len sm_trgt_len sm_half sm_max_end sm_win_end sm_max_match sm_table]; auto. lia. Qed.
Lemma cfg_fwd c src trgt start s h p : sm_cfg c src trgt start s -> sm_cfg c src trgt start (sm_set_fwd s h p).
Proof. intros [C1 C2 C3 C4 C5 C6 C7 C8 C9 C10]. constructor; assumption. Qed.
Lemma added_mono cur cur' l : cur <= cur' -> Forall (fun x => 0 <= x <= cur) l -> Forall (fun x => 0 <= x <= cur') l.
Proof. intros H F. eapply Forall_impl; [|exact F]. cbv beta. lia. Qed.
Lemma estep_ssinv m src trgt lazy mx e e' c start s : zlen trgt < 2 ^ 63 -> 0 <= start -> start + 9 < zlen trgt -> mx <= zlen trgt -> e_cur e + 4 < mx -> einv src trgt mx e -> e_src e = Some s -> ssinv c src trgt start e s ->
  estep m src trgt lazy mx e = Ok e' -> exists s', e_src e' = Some s' /\ ssinv c src trgt start e' s'.
Proof.
  intros Hz Hst Hst9 Hmx Hc V Es (C & Hh & Hp9 & added & A1 & A2 & A3 & A4) H. pose proof (iv_cur _ _ _ _ V) as Hcur. pose proof (iv_sm _ _ _ _ V) as R. rewrite Es in R. destruct R as (R1 & R2 & R3).
  pose proof (iv_st _ _ _ _ V) as Vs. unfold estep in H. destruct (e_st e) as [| |len|] eqn:Est; cbn [is_start] in R3.
  - unfold start_new_match in H. apply bind_ok in H as ([r b] & _ & H). apply bind_ok in H as (sm & Ek & H). apply bind_ok in H as (tm & _ & H). injection H as <-. rewrite Es in Ek. cbn [opt_map] in Ek. apply bind_ok in Ek as (s2 & Ek & Ek'). injection Ek' as <-.
    exists s2. split; [reflexivity|]. unfold src_seek in Ek. apply bind_ok in Ek as (s1 & E1 & Ek). unfold ssinv. cbn [e_cur].
    assert (G : sm_cfg c src trgt start s1 /\ sm_hash s1 = sm_hash s /\ sm_pos s1 = sm_pos s /\ exists added, (exists l, added = l ++ [start]) /\ Forall (fun x => 0 <= x <= e_cur e) added /\ holds (sm_table s1) (map (entry (step_of c) src) (indexed_by c src trgt start added)) /\
      (one_window c src start -> added = [start] /\ sm_next s1 = USIZE_MAX)).
    { destruct (sm_next s <=? e_cur e) eqn:En.
      - destruct (add_start_exact m c src trgt start s (e_cur e) _ s1 C Hst A3 ltac:(lia) E1) as (t & nx & -> & G1 & G2 & G3 & G4). split; [apply cfg_next; assumption|]. split; [reflexivity|]. split; [reflexivity|].
        exists (e_cur e :: added). split; [destruct A1 as (l & ->); exists (e_cur e :: l); reflexivity|]. split; [constructor; [lia|exact A2]|]. split; [rewrite indexed_cons; exact G3|].
        intro O. destruct (A4 O) as [_ Hn]. rewrite Hn in En. unfold USIZE_MAX in En. lia.
      - injection E1 as <-. split; [exact C|]. split; [reflexivity|]. split; [reflexivity|]. exists added. auto. }
    destruct G as (G1 & G2 & G3 & G4). rewrite G2, G3 in Ek. assert (S1 : sm_max s1 = sm_max s) by (rewrite (sg_max _ _ _ _ _ G1), (sg_max _ _ _ _ _ C); reflexivity). rewrite S1 in Ek.
    destruct (sm_pos s <? sm_max s) eqn:Ep.
    + apply bind_ok in Ek as (h & Eh & Ek). injection Ek as <-. split; [apply cfg_fwd; exact G1|]. cbn [sm_set_fwd sm_hash sm_pos sm_table sm_next].
      destruct (sm_pos s + 9 >? e_cur e) eqn:Ej.
      * pose proof (roll_large_len _ _ _ _ _ Eh) as Hr. rewrite Hh in Eh. unfold nine_hash in Eh. destruct (C38_rolling_many_steps (Z.to_nat (e_cur e - sm_pos s)) trgt (sm_pos s)) as [Hroll _]. rewrite Hroll in Eh by lia. injection Eh as <-.
        replace (sm_pos s + Z.of_nat (Z.to_nat (e_cur e - sm_pos s))) with (e_cur e) by lia. split; [reflexivity|]. split; [lia|exact G4].
      * apply bind_ok in Eh as (w & Ew & Eh). apply slice_inv in Ew as (_ & W2 & ->). injection Eh as <-. replace (e_cur e + 9 - e_cur e) with 9 by lia. split; [reflexivity|]. split; [lia|exact G4].
    + injection Ek as <-. split; [exact G1|]. rewrite G2, G3. split; [exact Hh|]. split; [exact Hp9|exact G4].
  - apply try_keeps_src in H as (K1 & K2). exists s. split; [congruence|]. unfold ssinv. rewrite K2. split; [exact C|]. split; [exact Hh|]. split; [exact Hp9|]. exists added. auto.
  - unfold found_match in H. apply bind_ok in H as (l & _ & H). destruct (_ && _ && _); injection H as <-; exists s; (split; [exact Es|]); (split; [exact C|]); (split; [exact Hh|]); (split; [exact Hp9|]); exists added; cbn [e_cur]; [auto|].
    destruct Vs as (V1 & V2 & _). split; [exact A1|]. split; [apply (added_mono (e_cur e)); [lia|exact A2]|]. auto.
  - unfold move_forward in H. apply bind_ok in H as (b & _ & H). apply bind_ok in H as (tm & _ & H). apply bind_ok in H as (sm & Ef & H). injection H as <-. rewrite Es in Ef. cbn [opt_map] in Ef. apply bind_ok in Ef as (s2 & Ef & Ef'). injection Ef' as <-.
    exists s2. split; [reflexivity|]. unfold ssinv. cbn [e_cur]. unfold src_forward in Ef. destruct (sm_pos s <? sm_max s) eqn:Ep.
    + apply bind_ok in Ef as (o & Eo & Ef). apply bind_ok in Ef as (n & En & Ef). injection Ef as <-. split; [apply cfg_fwd; exact C|]. cbn [sm_set_fwd sm_hash sm_pos sm_table sm_next].
      assert (Hpc : sm_pos s = e_cur e) by lia. destruct (C38_rolling_equals_fresh trgt (e_cur e) o n) as [C38 _]. assert (Hl : e_cur e + 10 <= zlen trgt) by lia. destruct (C38 ltac:(lia) ltac:(lia) Eo En) as [Ef' _].
      rewrite Hh, Hpc. unfold nine_hash. rewrite Ef'. split; [reflexivity|]. split; [lia|]. exists added. split; [exact A1|]. split; [apply (added_mono (e_cur e)); [lia|exact A2]|]. auto.
    + injection Ef as <-. split; [exact C|]. split; [exact Hh|]. split; [exact Hp9|]. exists added. split; [exact A1|]. split; [apply (added_mono (e_cur e)); [lia|exact A2]|]. auto.
Qed.
(** The encoder, with these settings, is about to search the source; it began at [start] (0, or after the source if a naive test found it at the beginning of the target). *)
Definition about_to_search (m : mode) (c : src_config) (nv : option naive) (lazy : Z) (src trgt : list Z) (start : Z) (e : est) (s : src_matcher) : Prop :=
  exists ops mx s0 tm, naive_tests nv src trgt = (ops, start, mx) /\ start + 9 < zlen trgt /\ src_build m c src start trgt = Ok s0 /\
    (tm = None \/ exists tc t, trgt_build m tc trgt start = Ok t /\ tm = Some t) /\
    visited m src trgt lazy mx (mkE ops start 4 0 0 StartNewMatch (Some s0) tm) e /\ e_st e = TryMatch /\ e_cur e + 9 <= mx /\ e_src e = Some s.
(** C106. Every search is the specification's, for the positions indexed by the window of the first position and possibly further windows. *)
Theorem C106_every_search m c nv lazy src trgt start e s :
  Forall is_byte trgt -> zlen trgt < 2 ^ 63 -> zlen src < 2 ^ 63 -> about_to_search m c nv lazy src trgt start e s ->
  exists added, (exists l, added = l ++ [start]) /\ Forall (fun x => 0 <= x <= e_cur e) added /\ (one_window c src start -> added = [start]) /\ 0 <= start /\ 0 <= e_cur e /\ e_cur e + 9 <= zlen trgt /\
    find_best_src_match m s src trgt = Ok (src_search (slot_bits c (zlen src)) src trgt (indexed_by c src trgt start added) (e_cur e)).
Proof.
  intros Hb Hz Hs (ops & mx & s0 & tm & Hn & Hst & B & Htm & V & Est & Hmx & Es). pose proof (zlen_nonneg trgt) as Hz0.
  destruct (naive_tests_ok src trgt _ _ _ _ Hn) as (N1 & N2 & N3 & _). assert (Hst0 : 0 <= start) by lia. assert (Hm : mx <= zlen trgt) by lia.
  assert (I0 : einv src trgt mx (mkE ops start 4 0 0 StartNewMatch (Some s0) tm)).
  { apply (einv_start src trgt nv); [exact Hn|exact (src_build_rel m c src trgt start s0 Hst0 B)|]. destruct Htm as [->|(tc & t & Et & ->)]; [exact I|exact (trgt_build_rel m tc trgt start t Hst0 Et)]. }
  assert (S0 : ssinv c src trgt start (mkE ops start 4 0 0 StartNewMatch (Some s0) tm) s0).
  { destruct (src_build_exact m c src trgt start s0 Hs Hst0 Hst B) as (t & nx & Eq & C & H & Hnx). split; [exact C|]. rewrite Eq. cbn [sm_hash sm_pos sm_table sm_next e_cur]. split; [reflexivity|]. split; [lia|].
    exists [start]. split; [exists []; reflexivity|]. split; [constructor; [lia|constructor]|]. split; [exact H|]. intros [O1 O2]. split; [reflexivity|]. rewrite Hnx. unfold src_window. cbv zeta. replace (start <? win_size c / 2) with true by lia.
    replace (hash_stop (step_of c) src <=? Z.min (win_size c) (hash_stop (step_of c) src)) with true by lia. reflexivity. }
  assert (G : forall e, visited m src trgt lazy mx (mkE ops start 4 0 0 StartNewMatch (Some s0) tm) e -> einv src trgt mx e /\ exists s, e_src e = Some s /\ ssinv c src trgt start e s).
  { clear e s V Est Hmx Es. intros e V. induction V as [|e e' V [IV (s & Es & SI)] Hlt Hstep]; [split; [exact I0|exists s0; auto]|].
    split; [exact (estep_inv m src trgt lazy mx e e' Hb ltac:(lia) ltac:(lia) ltac:(lia) Hlt IV Hstep)|]. exact (estep_ssinv m src trgt lazy mx e e' c start s Hz Hst0 Hst Hm Hlt IV Es SI Hstep). }
  destruct (G e V) as [IV (s' & Es' & C & Hh & Hp9 & added & A1 & A2 & A3 & A4)]. rewrite Es in Es'. injection Es' as <-. exists added. split; [exact A1|]. split; [exact A2|]. split; [intro O; apply (A4 O)|].
  pose proof (iv_cur _ _ _ _ IV) as Hcur. pose proof (iv_sm _ _ _ _ IV) as R. rewrite Es, Est in R. cbn [is_start] in R. destruct R as (R1 & R2 & R3). assert (Hpc : sm_pos s = e_cur e) by lia.
  split; [exact Hst0|]. split; [lia|]. split; [lia|].
  rewrite <- Hpc. apply (src_find_exact m c src trgt start); [exact C|exact A3|apply indexed_ok; exact Hst0|exact Hh|lia|exact Hp9|lia|lia].
Qed.
(** With one window (always, for sources of up to 64 MiB and the default window): all multiples of the step up to the place where hashing stops. *)
Definition all_indexed (c : src_config) (src : list Z) : list Z := indexed_in (step_of c) 0 (hash_stop (step_of c) src).
Lemma indexed_one c src trgt start : one_window c src start -> indexed_by c src trgt start [start] = all_indexed c src.
Proof. intros [O1 O2]. unfold indexed_by, src_window. cbn [flat_map]. cbv zeta. replace (start <? win_size c / 2) with true by lia. rewrite app_nil_r. unfold all_indexed. f_equal. lia. Qed.
Theorem C106_every_search_one_window m c nv lazy src trgt start e s :
  Forall is_byte trgt -> zlen trgt < 2 ^ 63 -> zlen src < 2 ^ 63 -> about_to_search m c nv lazy src trgt start e s -> one_window c src start ->
  find_best_src_match m s src trgt = Ok (src_search (slot_bits c (zlen src)) src trgt (all_indexed c src) (e_cur e)).
Proof.
  intros Hb Hz Hs A O. destruct (C106_every_search m c nv lazy src trgt start e s Hb Hz Hs A) as (added & _ & _ & H & _ & _ & _ & E). rewrite (H O), indexed_one in E by exact O. exact E.
Qed.

(** ** Consequences *)
Lemma search_some bits src trgt l cur q pre len : src_search bits src trgt l cur = Some (q, pre, len) ->
  In q l /\ sub src q 9 = sub trgt cur 9 /\ pre = Z.max 0 (Z.min (agree_left src q trgt cur) (Z.min q cur - 1)) /\ len = agree_right src q trgt cur.
Proof.
  unfold src_search. destruct (find _ l) as [p|] eqn:E; [|discriminate]. destruct (list_eqb (sub src p 9) (sub trgt cur 9)) eqn:El; [|discriminate]. intro H. injection H as <- <- <-. apply find_some in E as [Hi _]. apply list_eqb_eq in El. auto.
Qed.
Lemma agree_right_sub src p trgt cur n : 0 <= p -> 0 <= cur -> 0 <= n -> p + n <= zlen src -> cur + n <= zlen trgt -> sub src p n = sub trgt cur n -> n <= agree_right src p trgt cur.
Proof.
  intros Hp Hc Hn H1 H2 E. unfold agree_right. rewrite <- (take_drop n (drop p src)), <- (take_drop n (drop cur trgt)). fold (sub src p n) (sub trgt cur n). rewrite E, lcp_app, zlen_sub by lia. pose proof (proj1 (lcp_bound (drop n (drop p src)) (drop n (drop cur trgt)))). lia.
Qed.
Lemma agree_right_eq src p trgt cur : 0 <= p <= zlen src -> 0 <= cur <= zlen trgt -> sub src p (agree_right src p trgt cur) = sub trgt cur (agree_right src p trgt cur).
Proof. intros Hp Hc. unfold sub, agree_right. apply lcp_take. Qed.
Lemma range_sorted : forall n lo, StronglySorted Z.lt (map (fun k => lo + Z.of_nat k) (seq 0 n)).
Proof.
  intros n lo. generalize 0%nat. induction n as [|n IH]; intro k; cbn [seq map]; [constructor|]. constructor; [apply IH|]. apply Forall_forall. intros x Hx. apply in_map_iff in Hx as (y & <- & Hy). apply in_seq in Hy. lia.
Qed.
Lemma all_sorted c src : StronglySorted Z.lt (all_indexed c src).
Proof. unfold all_indexed, indexed_in, multiples. apply sorted_filter. apply range_sorted. Qed.
Lemma find_lowest (f : Z -> bool) l p : StronglySorted Z.lt l -> In p l -> f p = true -> exists q, find f l = Some q /\ q <= p.
Proof.
  intros S. induction S as [|x l S IH F]; intros Hi Hf; [destruct Hi|]. cbn [find]. destruct (f x) eqn:E.
  - exists x. split; [reflexivity|]. destruct Hi as [->|Hi]; [lia|]. rewrite Forall_forall in F. specialize (F p Hi). lia.
  - destruct Hi as [->|Hi]; [congruence|]. auto.
Qed.
(** Which positions these are: the multiples of the step, up to nine bytes before the end (for steps below nine, eighteen), rounded down. *)
Definition index_stop (c : src_config) (src : list Z) : Z := if 9 <=? step_of c then hash_stop (step_of c) src else round_down (Z.max 0 (hash_stop (step_of c) src - 9)) (step_of c).
Lemma in_all c src p : In p (all_indexed c src) <-> 0 <= p < index_stop c src /\ p mod step_of c = 0.
Proof. unfold all_indexed, indexed_in. rewrite in_multiples. reflexivity. Qed.
(** An indexed word is found, at its lowest place, unless another word of the source before it took its slot. *)
Theorem C106_word_found m c nv lazy src trgt start e s p :
  Forall is_byte trgt -> zlen trgt < 2 ^ 63 -> zlen src < 2 ^ 63 -> about_to_search m c nv lazy src trgt start e s -> one_window c src start ->
  0 <= p < index_stop c src -> p mod step_of c = 0 -> sub src p 9 = sub trgt (e_cur e) 9 ->
  (forall q, 0 <= q < p -> q mod step_of c = 0 -> large_slot (slot_bits c (zlen src)) (nine_hash src q) = large_slot (slot_bits c (zlen src)) (nine_hash src p) -> sub src q 9 = sub src p 9) ->
  exists q pre len, find_best_src_match m s src trgt = Ok (Some (q, pre, len)) /\ q <= p /\ sub src q 9 = sub src p 9 /\ (forall q', 0 <= q' -> q' mod step_of c = 0 -> sub src q' 9 = sub src p 9 -> q <= q') /\
    9 <= len /\ sub src q len = sub trgt (e_cur e) len /\ (e_cur e + len = zlen trgt \/ q + len = zlen src \/ idx src (q + len) <> idx trgt (e_cur e + len)).
Proof.
  intros Hb Hz Hs A O Hp Hm E Hq. rewrite (C106_every_search_one_window m c nv lazy src trgt start e s Hb Hz Hs A O). destruct (C106_every_search m c nv lazy src trgt start e s Hb Hz Hs A) as (_ & _ & _ & _ & _ & Hc0 & Hc9 & _).
  assert (Hi : In p (all_indexed c src)) by (apply in_all; auto). unfold src_search.
  assert (Hnine : nine_hash trgt (e_cur e) = nine_hash src p) by (unfold nine_hash; rewrite E; reflexivity). rewrite Hnine.
  destruct (find_lowest (fun q => large_slot (slot_bits c (zlen src)) (nine_hash src q) =? large_slot (slot_bits c (zlen src)) (nine_hash src p)) _ p (all_sorted c src) Hi (Z.eqb_refl _)) as (q & Eq & Hle). rewrite Eq.
  pose proof Eq as Eq'. apply find_some in Eq' as [Hiq Hsl]. pose proof Hiq as Hiq'. apply in_all in Hiq as [Hq1 Hq2]. assert (Esub : sub src q 9 = sub src p 9) by (destruct (Z.eq_dec q p) as [->|]; [reflexivity|apply Hq; [lia|exact Hq2|apply Z.eqb_eq; exact Hsl]]).
  replace (list_eqb (sub src q 9) (sub trgt (e_cur e) 9)) with true by (symmetry; apply list_eqb_eq; congruence).
  assert (Hq9 : q + 9 <= zlen src). { assert (F : Forall (indexable_pos (step_of c) src) (all_indexed c src)) by (rewrite <- (indexed_one c src trgt start O); destruct A as (ops & mx & s0 & tm & Hn & _); apply indexed_ok; destruct (naive_tests_ok src trgt _ _ _ _ Hn) as (N1 & N2 & _); lia). rewrite Forall_forall in F. apply (F q Hiq'). }
  do 3 eexists. split; [reflexivity|]. split; [exact Hle|]. split; [exact Esub|]. split.
  - intros q' Hq'0 Hq'm Eq''. destruct (Z_le_gt_dec q q') as [|Hgt]; [assumption|exfalso]. assert (Hi' : In q' (all_indexed c src)) by (apply in_all; lia).
    destruct (find_lowest (fun q => large_slot (slot_bits c (zlen src)) (nine_hash src q) =? large_slot (slot_bits c (zlen src)) (nine_hash src p)) _ q' (all_sorted c src) Hi') as (q2 & Eq2 & Hle2); [unfold nine_hash; rewrite Eq''; apply Z.eqb_refl|].
    rewrite Eq2 in Eq. injection Eq as ->. lia.
  - split; [apply agree_right_sub; try lia; congruence|]. split; [apply agree_right_eq; lia|].
    unfold agree_right. destruct (lcp_bound (drop q src) (drop (e_cur e) trgt)) as [B1 B2]. rewrite !zlen_drop in B1, B2 by lia.
    set (k := lcp (drop q src) (drop (e_cur e) trgt)) in *. destruct (Z.eq_dec (e_cur e + k) (zlen trgt)); [auto|]. destruct (Z.eq_dec (q + k) (zlen src)); [auto|]. right. right. intro Hx.
    pose proof (agree_right_sub src q trgt (e_cur e) (k + 1) ltac:(lia) ltac:(lia) ltac:(lia) ltac:(lia) ltac:(lia)) as G. unfold agree_right in G. fold k in G. assert (k + 1 <= k); [|lia]. apply G.
    rewrite (sub_split src q (k + 1) k), (sub_split trgt (e_cur e) (k + 1) k) by lia. replace (k + 1 - k) with 1 by lia. f_equal; [exact (agree_right_eq src q trgt (e_cur e) ltac:(lia) ltac:(lia))|].
    destruct (idx_ok src (q + k)) as (x & Ex & _); [lia|]. rewrite Ex in Hx. rewrite (idx_sub1 _ _ _ Ex), (idx_sub1 _ _ _ (eq_sym Hx)). reflexivity.
Qed.
(** A block of at least [step + 8] bytes contains an indexed word, when it begins far enough before the end. *)
Theorem C106_block_has_word c src trgt a b n : 0 <= a -> 0 <= b -> a + n <= zlen src -> b + n <= zlen trgt -> sub src a n = sub trgt b n -> step_of c + 8 <= n -> a + step_of c <= index_stop c src ->
  exists p, a <= p < a + step_of c /\ p < index_stop c src /\ p mod step_of c = 0 /\ sub src p 9 = sub trgt (b + (p - a)) 9.
Proof.
  intros Ha Hb H1 H2 E Hn Hi. pose proof (step_pos c) as Hs. destruct (round_bounds (a + step_of c - 1) (step_of c) Hs ltac:(lia)) as (R1 & R2 & R3). exists (round_down (a + step_of c - 1) (step_of c)). set (p := round_down (a + step_of c - 1) (step_of c)) in *.
  split; [lia|]. split; [lia|]. split; [exact R2|]. pose proof (sub_sub src a n (p - a) 9 ltac:(lia) ltac:(lia) ltac:(lia) ltac:(lia)) as S1. pose proof (sub_sub trgt b n (p - a) 9 ltac:(lia) ltac:(lia) ltac:(lia) ltac:(lia)) as S2.
  replace (a + (p - a)) with p in S1 by lia. rewrite <- S1, <- S2, E. reflexivity.
Qed.
(** The last words of the source are never found, whatever the settings. *)
Theorem C106_last_words_never_found m c nv lazy src trgt start e s q pre len :
  Forall is_byte trgt -> zlen trgt < 2 ^ 63 -> zlen src < 2 ^ 63 -> about_to_search m c nv lazy src trgt start e s -> find_best_src_match m s src trgt = Ok (Some (q, pre, len)) ->
  q mod step_of c = 0 /\ q + step_of c + 9 <= zlen src /\ (step_of c < 9 -> q + step_of c + 18 <= zlen src).
Proof.
  intros Hb Hz Hs A F. destruct (C106_every_search m c nv lazy src trgt start e s Hb Hz Hs A) as (added & _ & _ & _ & Hst & _ & _ & E). rewrite E in F. injection F as F. apply search_some in F as (Hi & _).
  apply in_flat_map in Hi as (cur & _ & Hi). destruct (src_window c src trgt start cur) as [[lo hi]|] eqn:W; [|destruct Hi]. destruct (window_bounds _ _ _ _ _ _ _ Hst W) as (B1 & B2 & B3).
  destruct (stop_bounds c src) as (T1 & T2 & T3). pose proof (step_pos c) as Hp. unfold indexed_in in Hi. apply in_multiples in Hi as [Hq1 Hq2].
  assert (Mul : forall x y, x mod step_of c = 0 -> y mod step_of c = 0 -> x < y -> x + step_of c <= y).
  { intros x y Hx Hy L. apply Z.mod_divide in Hx; [|lia]. apply Z.mod_divide in Hy; [|lia]. destruct Hx as [i ->], Hy as [j ->]. assert (i < j) by nia. nia. }
  split; [exact Hq2|]. destruct (9 <=? step_of c) eqn:E9.
  - pose proof (Mul q _ Hq2 T3 ltac:(lia)). specialize (T2 ltac:(lia)). lia.
  - destruct (round_bounds (Z.max 0 (hi - 9)) (step_of c) Hp ltac:(lia)) as (R1 & R2 & R3). pose proof (Mul q _ Hq2 R2 ltac:(lia)). specialize (T2 ltac:(lia)). lia.
Qed.
Lemma take_rev_sub (l : list Z) p n : 0 <= n <= p -> p <= zlen l -> take n (rev (take p l)) = rev (sub l (p - n) n).
Proof. intros Hn Hp. rewrite take_rev by (rewrite zlen_take by lia; lia). rewrite zlen_take by lia. f_equal. unfold sub. rewrite take_drop_comm by lia. replace (p - n + n) with p by lia. reflexivity. Qed.
Lemma lcp_ge a b n : 0 <= n <= zlen a -> take n a = take n b -> n <= lcp a b.
Proof.
  intros Hn E. rewrite <- (take_drop n a), <- (take_drop n b), <- E, lcp_app, zlen_take by lia. pose proof (proj1 (lcp_bound (drop n a) (drop n b))). lia.
Qed.
Lemma agree_left_max src p trgt cur : 0 <= p <= zlen src -> 0 <= cur <= zlen trgt -> let k := agree_left src p trgt cur in k < p -> k < cur -> idx src (p - k - 1) <> idx trgt (cur - k - 1).
Proof.
  intros Hp Hc k H1 H2 E. unfold agree_left in k. set (a := rev (take p src)) in *. set (b := rev (take cur trgt)) in *. pose proof (proj1 (lcp_bound a b)) as Hk. fold k in Hk.
  assert (k + 1 <= k); [|lia]. unfold k at 2. assert (Za : zlen a = p) by (unfold a; rewrite zlen_rev, zlen_take by lia; reflexivity). assert (Zb : zlen b = cur) by (unfold b; rewrite zlen_rev, zlen_take by lia; reflexivity).
  apply lcp_ge; [lia|]. pose proof (lcp_take a b) as T. fold k in T. unfold a, b in *. rewrite !take_rev_sub in T by lia. rewrite !take_rev_sub by lia. f_equal. apply (f_equal (@rev Z)) in T. rewrite !rev_involutive in T.
  rewrite (sub_split src (p - (k + 1)) (k + 1) 1), (sub_split trgt (cur - (k + 1)) (k + 1) 1) by lia. replace (p - (k + 1) + 1) with (p - k) by lia. replace (cur - (k + 1) + 1) with (cur - k) by lia. replace (k + 1 - 1) with k by lia.
  f_equal; [|exact T]. destruct (idx_ok src (p - k - 1)) as (x & Ex & _); [lia|]. rewrite Ex in E. replace (p - (k + 1)) with (p - k - 1) by lia. replace (cur - (k + 1)) with (cur - k - 1) by lia. rewrite (idx_sub1 _ _ _ Ex), (idx_sub1 _ _ _ (eq_sym E)). reflexivity.
Qed.
(** The extension to the left, exactly: as far as source and target agree, but never to the first byte of either. *)
Theorem C106_extension_exact m c nv lazy src trgt start e s q pre len :
  Forall is_byte trgt -> zlen trgt < 2 ^ 63 -> zlen src < 2 ^ 63 -> about_to_search m c nv lazy src trgt start e s -> find_best_src_match m s src trgt = Ok (Some (q, pre, len)) ->
  0 <= pre /\ sub src (q - pre) (pre + len) = sub trgt (e_cur e - pre) (pre + len) /\
  (pre + 1 = q \/ pre + 1 = e_cur e \/ pre = 0 /\ (q = 0 \/ e_cur e = 0) \/ idx src (q - pre - 1) <> idx trgt (e_cur e - pre - 1)).
Proof.
  intros Hb Hz Hs A F. destruct (C106_every_search m c nv lazy src trgt start e s Hb Hz Hs A) as (added & _ & _ & _ & Hst & Hc0 & Hc9 & E). rewrite E in F. injection F as F. apply search_some in F as (Hi & Heq & Epre & Elen).
  pose proof (indexed_ok c src trgt start added Hst) as Ix. rewrite Forall_forall in Ix. destruct (Ix q Hi) as (I1 & _ & I3).
  pose proof (extend_exact m src q trgt (e_cur e) I1 I3 Hc0 Hc9 ltac:(lia) ltac:(lia)) as X. replace (list_eqb (sub src q 9) (sub trgt (e_cur e) 9)) with true in X by (symmetry; apply list_eqb_eq; exact Heq). rewrite <- Epre, <- Elen in X.
  apply extend_src_sound in X as (X1 & X2 & X3 & X4 & X5 & X6 & X7 & X8); [|lia|lia]. replace (pre + (len - 9 + 9)) with (pre + len) in X8 by lia. split; [exact X3|]. split; [symmetry; exact X8|].
  pose proof (agree_left_max src q trgt (e_cur e) ltac:(lia) ltac:(lia)) as M. cbv zeta in M. pose proof (proj1 (lcp_bound (rev (take q src)) (rev (take (e_cur e) trgt)))) as Hk. fold (agree_left src q trgt (e_cur e)) in Hk. set (k := agree_left src q trgt (e_cur e)) in *.
  destruct (Z_lt_le_dec k (Z.min q (e_cur e) - 1)) as [L|L].
  - assert (pre = k) by lia. subst pre. right. right. right. replace (Z.max 0 (Z.min k (Z.min q (e_cur e) - 1))) with k by lia. apply M; lia.
  - lia.
Qed.

(** ** Beside the theorems *)
Fixpoint steps_of (n : nat) (m : mode) (src trgt : list Z) (lazy : Z) (e : est) : res est :=
  match n with O => Ok e | S n => if e_cur e + 4 <? zlen trgt then do e <- estep m src trgt lazy (zlen trgt) e; steps_of n m src trgt lazy e else Panic end.
(** The place and the answer of the search after [n] rounds. *)
Definition search_after (n : nat) (m : mode) (c : src_config) (lazy : Z) (src trgt : list Z) : res (Z * option (Z * Z * Z)) :=
  do s0 <- src_build m c src 0 trgt; do e <- steps_of n m src trgt lazy (mkE [] 0 4 0 0 StartNewMatch (Some s0) None);
  match e_st e, e_src e with
  | TryMatch, Some s => if (e_cur e + 9 <=? zlen trgt) && (9 <? zlen trgt) then do r <- find_best_src_match m s src trgt; Ok (e_cur e, r) else Panic
  | _, _ => Panic
  end.
Lemma steps_visited m src trgt lazy e0 : forall n e e', visited m src trgt lazy (zlen trgt) e0 e -> steps_of n m src trgt lazy e = Ok e' -> visited m src trgt lazy (zlen trgt) e0 e'.
Proof.
  induction n as [|n IH]; intros e e' V H; cbn [steps_of] in H; [injection H as <-; exact V|]. destruct (e_cur e + 4 <? zlen trgt) eqn:E; [|discriminate]. apply bind_ok in H as (e1 & E1 & H). apply (IH e1); [|exact H]. apply (v_step _ _ _ _ _ _ e); [exact V|lia|exact E1].
Qed.
Lemma search_after_about n m c lazy src trgt cur r : search_after n m c lazy src trgt = Ok (cur, r) -> exists e s, about_to_search m c None lazy src trgt 0 e s /\ e_cur e = cur /\ find_best_src_match m s src trgt = Ok r.
Proof.
  unfold search_after. intro H. apply bind_ok in H as (s0 & B & H). apply bind_ok in H as (e & Er & H). destruct (e_st e) eqn:Es; try discriminate H. destruct (e_src e) as [s|] eqn:Eo; [|discriminate H]. destruct (_ && _) eqn:El; [|discriminate H].
  apply bind_ok in H as (r' & Ef & H). injection H as <- <-. exists e, s. split; [|auto]. exists [], (zlen trgt), s0, None. split; [unfold naive_tests; destruct (_ >? _); reflexivity|]. split; [lia|]. split; [exact B|]. split; [auto|].
  split; [apply (steps_visited m src trgt lazy _ n (mkE [] 0 4 0 0 StartNewMatch (Some s0) None)); [apply v_start|exact Er]|]. split; [exact Es|]. split; [lia|exact Eo].
Qed.
(** A source of 48 bytes in which the nine bytes "abcdefghi" stand at 0 and, with more that follows, at 18; a target in which they follow three other bytes. *)
Definition nine : list Z := [97;98;99;100;101;102;103;104;105].
Definition es : list Z := nine ++ [1;2;3;4;5;6;7;8;9] ++ nine ++ [106;107;108;109;110;111;112;113;114;115;116;117;118;119;120;121;122;10;11;12;13].
Definition et : list Z := [200;201;202] ++ nine ++ [106;107;108;109;110;111;112;113;114;115;203].
Lemma es_window c : one_window c es 0.
Proof.
  destruct (win_size_half c) as [W1 W2]. pose proof (step_pos c) as Hs. split; [lia|]. unfold hash_stop. destruct (round_bounds (Z.max 0 (zlen es - 9)) (step_of c) Hs ltac:(lia)) as (R & _). change (zlen es) with 48 in *. lia.
Qed.
(** The source has a nine-byte word of the target at 0 and a longer match at 18; with step 1 the index has both, and at 3 the encoder finds the lower one, of nine bytes. *)
Example C106_every_search_example : forall m, exists e s, about_to_search m (mkSC 1 None) None 90 es et 0 e s /\ e_cur e = 3 /\ one_window (mkSC 1 None) es 0 /\ slot_bits (mkSC 1 None) 48 = 5 /\
  index_stop (mkSC 1 None) es = 30 /\ index_stop (mkSC 4 None) es = 24 /\ index_stop (mkSC 18 None) es = 36 /\ find_best_src_match m s es et = Ok (Some (0, 0, 9)).
Proof.
  intro m. destruct (search_after_about 7 m (mkSC 1 None) 90 es et 3 (Some (0, 0, 9)) ltac:(destruct m; vm_compute; reflexivity)) as (e & s & A & B & C). exists e, s. split; [exact A|]. split; [exact B|]. split; [apply es_window|]. repeat split; [vm_compute; reflexivity..|exact C].
Qed.
(** So a match is not the longest one: the longest here has 19 bytes. *)
Theorem C106_not_the_longest : exists src trgt, Forall is_byte src /\ Forall is_byte trgt /\ forall m, exists e s, about_to_search m (mkSC 1 None) None 90 src trgt 0 e s /\
  In 18 (all_indexed (mkSC 1 None) src) /\ sub src 18 19 = sub trgt (e_cur e) 19 /\ find_best_src_match m s src trgt = Ok (Some (0, 0, 9)).
Proof.
  exists es, et. assert (B : forall l, forallb (fun b => (0 <=? b) && (b <? 256)) l = true -> Forall is_byte l) by (intros l H; apply Forall_forall; intros x Hx; rewrite forallb_forall in H; specialize (H x Hx); unfold is_byte; lia).
  split; [apply B; vm_compute; reflexivity|]. split; [apply B; vm_compute; reflexivity|]. intro m. destruct (search_after_about 7 m (mkSC 1 None) 90 es et 3 (Some (0, 0, 9)) ltac:(destruct m; vm_compute; reflexivity)) as (e & s & A & C & D). exists e, s.
  split; [exact A|]. split; [apply in_all; vm_compute; repeat split; discriminate|]. split; [rewrite C; vm_compute; reflexivity|exact D].
Qed.
Definition counting (n : nat) : list Z := map Z.of_nat (seq 0 n).
Definition cw : list Z := [200;201;202] ++ sub (counting 60) 12 20 ++ [203].
Lemma counting_window c n : (n <= 1000)%nat -> one_window c (counting n) 0.
Proof.
  intro Hn. destruct (win_size_half c) as [W1 W2]. pose proof (step_pos c) as Hs. split; [lia|]. unfold hash_stop. destruct (round_bounds (Z.max 0 (zlen (counting n) - 9)) (step_of c) Hs ltac:(lia)) as (R & _).
  assert (zlen (counting n) = Z.of_nat n) by (unfold zlen, counting; rewrite map_length, seq_length; reflexivity). lia.
Qed.
Example C106_word_found_example : forall m, exists e s, about_to_search m (mkSC 1 None) None 90 (counting 60) cw 0 e s /\ one_window (mkSC 1 None) (counting 60) 0 /\ e_cur e = 3 /\ 0 <= 12 < index_stop (mkSC 1 None) (counting 60) /\ sub (counting 60) 12 9 = sub cw 3 9 /\
  (forall q, 0 <= q < 12 -> q mod step_of (mkSC 1 None) = 0 -> large_slot (slot_bits (mkSC 1 None) (zlen (counting 60))) (nine_hash (counting 60) q) = large_slot (slot_bits (mkSC 1 None) (zlen (counting 60))) (nine_hash (counting 60) 12) -> sub (counting 60) q 9 = sub (counting 60) 12 9) /\
  find_best_src_match m s (counting 60) cw = Ok (Some (12, 0, 20)).
Proof.
  intro m. destruct (search_after_about 7 m (mkSC 1 None) 90 (counting 60) cw 3 (Some (12, 0, 20)) ltac:(destruct m; vm_compute; reflexivity)) as (e & s & A & B & C). exists e, s. split; [exact A|]. split; [apply counting_window; lia|]. split; [exact B|].
  split; [vm_compute; split; [discriminate|reflexivity]|]. split; [vm_compute; reflexivity|]. split; [|exact C]. intros q Hq _ E.
  assert (K : forallb (fun q => negb (large_slot (slot_bits (mkSC 1 None) (zlen (counting 60))) (nine_hash (counting 60) q) =? large_slot (slot_bits (mkSC 1 None) (zlen (counting 60))) (nine_hash (counting 60) 12))) (range 0 12) = true) by (vm_compute; reflexivity).
  rewrite forallb_forall in K. specialize (K q (proj2 (in_range q 0 12) Hq)). rewrite E, Z.eqb_refl in K. discriminate K.
Qed.
Example C106_block_has_word_example : sub es 18 19 = sub et 3 19 /\ step_of (mkSC 9 None) + 8 <= 19 /\ 18 + step_of (mkSC 9 None) <= index_stop (mkSC 9 None) es.
Proof. vm_compute. repeat split; discriminate. Qed.
(** A dictionary of 60 different bytes, indexed every 16 bytes, and all but the first five of it as target: the search that finds the word at 16 is at 11, and extends 10 bytes to the left, leaving out the first byte of the target. *)
Example C106_extension_exact_example : forall m, exists e s, about_to_search m (mkSC 16 None) None 90 (counting 60) (drop 5 (counting 60)) 0 e s /\ e_cur e = 11 /\ idx (counting 60) (16 - 10 - 1) = idx (drop 5 (counting 60)) (11 - 10 - 1) /\
  find_best_src_match m s (counting 60) (drop 5 (counting 60)) = Ok (Some (16, 10, 44)).
Proof.
  intro m. destruct (search_after_about 23 m (mkSC 16 None) 90 (counting 60) (drop 5 (counting 60)) 11 (Some (16, 10, 44)) ltac:(destruct m; vm_compute; reflexivity)) as (e & s & A & B & C). exists e, s. split; [exact A|]. split; [exact B|]. split; [vm_compute; reflexivity|exact C].
Qed.
Example C106_last_words_never_found_example : forall m, exists e s, about_to_search m (mkSC 16 None) None 90 (counting 60) (drop 5 (counting 60)) 0 e s /\ find_best_src_match m s (counting 60) (drop 5 (counting 60)) = Ok (Some (16, 10, 44)).
Proof. intro m. destruct (C106_extension_exact_example m) as (e & s & A & _ & _ & C). eauto. Qed.
(** So the end of the dictionary may be sent again, whatever the settings: 17 bytes here. *)
Theorem C106_tail_missed : exists src trgt, Forall is_byte src /\ trgt = drop (zlen src - 17) src /\ zlen trgt = 17 /\
  (forall m c nv lazy start e s, about_to_search m c nv lazy src trgt start e s -> find_best_src_match m s src trgt = Ok None) /\
  (exists m e s, about_to_search m (mkSC 1 None) None 90 src trgt 0 e s) /\ (forall m, encode_inner m (mkIC None (Some (mkSC 1 None)) None None) src trgt = Ok []).
Proof.
  exists (counting 40), (drop 23 (counting 40)). split; [apply Forall_forall; intros x Hx; apply in_map_iff in Hx as (k & <- & Hk); apply in_seq in Hk; unfold is_byte; lia|]. split; [vm_compute; reflexivity|]. split; [vm_compute; reflexivity|]. split; [|split].
  - intros m c nv lazy start e s A.
    assert (Hb : Forall is_byte (drop 23 (counting 40))) by (apply Forall_forall; intros x Hx; assert (In x (counting 40)) as H by (rewrite <- (take_drop 23 (counting 40)); apply in_or_app; right; exact Hx); apply in_map_iff in H as (k & <- & Hk); apply in_seq in Hk; unfold is_byte; lia).
    destruct (C106_every_search m c nv lazy (counting 40) (drop 23 (counting 40)) start e s Hb ltac:(vm_compute; reflexivity) ltac:(vm_compute; reflexivity) A) as (added & _ & _ & _ & Hst & Hc0 & Hc9 & E). rewrite E. f_equal.
    destruct (src_search _ _ _ _ _) as [[[q pre] len]|] eqn:F; [exfalso|reflexivity]. destruct (C106_last_words_never_found m c nv lazy (counting 40) (drop 23 (counting 40)) start e s q pre len Hb ltac:(vm_compute; reflexivity) ltac:(vm_compute; reflexivity) A E) as (_ & Q1 & Q2).
    apply search_some in F as (Hi & Heq & _). clear E. pose proof (indexed_ok c (counting 40) (drop 23 (counting 40)) start added Hst) as Ix. rewrite Forall_forall in Ix. destruct (Ix q Hi) as (I1 & _). pose proof (step_pos c) as Hs.
    change (zlen (counting 40)) with 40 in *. change (zlen (drop 23 (counting 40))) with 17 in *. assert (Hq : q <= 22) by (destruct (Z_lt_le_dec (step_of c) 9); lia).
    assert (K : forallb (fun q => forallb (fun k => negb (list_eqb (sub (counting 40) q 9) (sub (drop 23 (counting 40)) k 9))) (range 0 9)) (range 0 23) = true) by (vm_compute; reflexivity).
    rewrite forallb_forall in K. specialize (K q (proj2 (in_range q 0 23) ltac:(lia))). rewrite forallb_forall in K. specialize (K (e_cur e) (proj2 (in_range (e_cur e) 0 9) ltac:(lia))). rewrite Heq in K.
    replace (list_eqb (sub (drop 23 (counting 40)) (e_cur e) 9) (sub (drop 23 (counting 40)) (e_cur e) 9)) with true in K by (symmetry; apply list_eqb_eq; reflexivity). discriminate K.
  - destruct (search_after_about 1 Debug (mkSC 1 None) 90 (counting 40) (drop 23 (counting 40)) 0 None ltac:(vm_compute; reflexivity)) as (e & s & A & _). exists Debug, e, s. exact A.
  - intro m. destruct m; vm_compute; reflexivity.
Qed.
(** A target of exactly nine bytes is searched under the checksum 0, and so not found, even as the beginning of the dictionary; with one more byte it is. *)
Theorem C106_nine_byte_target_missed : exists src trgt b, Forall is_byte src /\ zlen trgt = 9 /\ sub src 0 9 = trgt /\
  forall m, encode_inner m (mkIC None (Some (mkSC 1 None)) None None) src trgt = Ok [] /\ encode_inner m (mkIC None (Some (mkSC 1 None)) None None) src (trgt ++ [b]) = Ok [MSrc 0 9 0].
Proof.
  exists (counting 40), (take 9 (counting 40)), 200. split; [apply Forall_forall; intros x Hx; apply in_map_iff in Hx as (k & <- & Hk); apply in_seq in Hk; unfold is_byte; lia|]. split; [vm_compute; reflexivity|]. split; [vm_compute; reflexivity|].
  intro m. destruct m; split; vm_compute; reflexivity.
Qed.
Print Assumptions C106_every_search.
Print Assumptions C106_every_search_one_window.
Print Assumptions C106_word_found.
Print Assumptions C106_block_has_word.
Print Assumptions C106_last_words_never_found.
Print Assumptions C106_extension_exact.
Print Assumptions C106_not_the_longest.
Print Assumptions C106_tail_missed.
Print Assumptions C106_nine_byte_target_missed.
