(** Which stretches the candidates of the encoder cover: blocks that also stand in the source. *)
From Coq Require Import Sorted.
From Verif Require Import Base Spec SpecEnc SpecLit MCommon MHasher MHashmap MOpMaker MTrgtMatcher MSrcMatcher MEncInner PBase PDecoder POpMaker PHashmap PEncInner PTotal TOpMaker PFind PLoss PRuns TMatch TMiss TSearch TSrcSearch.
Ltac Zify.zify_post_hook ::= idtac.
Arguments Z.add : simpl never.
Arguments Z.sub : simpl never.
Arguments Z.mul : simpl never.
Arguments Z.pow : simpl never.
Arguments Z.div : simpl never.
Arguments Z.modulo : simpl never.

(** A position of the target in the block ([n] bytes at [t], [s] in the source) whose word in the source is indexed and the first in its slot. *)
Definition own_word (c : src_config) (src : list Z) (s t n x : Z) : Prop :=
  t <= x <= t + n - 9 /\ s + (x - t) < index_stop c src /\ (s + (x - t)) mod step_of c = 0 /\
  forall q, 0 <= q < s + (x - t) -> q mod step_of c = 0 -> large_slot (slot_bits c (zlen src)) (nine_hash src q) <> large_slot (slot_bits c (zlen src)) (nine_hash src (s + (x - t))).
(** The [n] bytes at [t] of the target are those at [s] of the source, and nothing stands in the way: among any [dist] positions of the block is one whose word is indexed and first in its slot; there are no four equal
    bytes; nothing of [lazy] bytes or more matches elsewhere. *)
Record clear_block (c : src_config) (trgt_on : bool) (lazy dist : Z) (src trgt : list Z) (s t n : Z) : Prop := mkBlock {
  b_s : 0 <= s; b_t : 0 <= t; b_n : 10 <= n; b_sn : s + n <= zlen src; b_tn : t + n <= zlen trgt;
  b_eq : sub src s n = sub trgt t n;
  b_dist : 1 <= dist;
  b_dense : forall z, t <= z -> z + dist <= t + n - 8 -> exists x, z <= x < z + dist /\ own_word c src s t n x;
  b_run : forall x b, t <= x <= t + n - 9 -> sub trgt x 4 <> rep b 4;
  b_src : forall x q len, t <= x <= t + n - 9 -> 0 <= q -> q mod step_of c = 0 -> 0 <= len -> q + len <= zlen src -> x + len <= zlen trgt -> sub src q len = sub trgt x len -> q - s = x - t \/ len < lazy;
  b_trgt : trgt_on = true -> forall x y len, t <= x <= t + n - 9 -> 0 <= y -> 0 <= len -> y + len <= x -> x + len <= zlen trgt -> sub trgt y len = sub trgt x len -> len < lazy
}.

Lemma ssinv_search m c src trgt start mx e s : zlen trgt < 2 ^ 63 -> zlen src < 2 ^ 63 -> 0 <= start -> one_window c src start -> einv src trgt mx e -> e_st e = TryMatch -> e_cur e + 9 <= zlen trgt ->
  e_src e = Some s -> ssinv c src trgt start e s -> find_best_src_match m s src trgt = Ok (src_search (slot_bits c (zlen src)) src trgt (all_indexed c src) (e_cur e)).
Proof.
  intros Hz Hs Hst O IV Est Hc9 Es (C & Hh & Hp9 & added & A1 & A2 & A3 & A4). destruct (A4 O) as [-> _].
  pose proof (iv_cur _ _ _ _ IV) as Hcur. pose proof (iv_sm _ _ _ _ IV) as R. rewrite Es, Est in R. cbn [is_start] in R. destruct R as (R1 & R2 & R3).
  assert (Hpc : sm_pos s = e_cur e) by lia. rewrite <- Hpc, <- (indexed_one c src trgt start O).
  apply (src_find_exact m c src trgt start); [exact C|exact A3|apply indexed_ok; exact Hst|exact Hh|lia|exact Hp9|lia|lia].
Qed.

Lemma own_word_dec c src s t n x : own_word c src s t n x \/ ~ own_word c src s t n x.
Proof.
  unfold own_word. set (p := s + (x - t)). destruct (Z_le_dec t x); [|right; lia]. destruct (Z_le_dec x (t + n - 9)); [|right; lia]. destruct (Z_lt_dec p (index_stop c src)); [|right; tauto]. destruct (Z.eq_dec (p mod step_of c) 0); [|right; tauto].
  destruct (forallb (fun q => negb (large_slot (slot_bits c (zlen src)) (nine_hash src q) =? large_slot (slot_bits c (zlen src)) (nine_hash src p))) (multiples (step_of c) 0 p)) eqn:E.
  - left. repeat (split; [assumption || (split; assumption)|]). intros q Q1 Q2. rewrite forallb_forall in E. specialize (E q ltac:(apply in_multiples; auto)). apply negb_true_iff in E. now apply Z.eqb_neq.
  - right. intros (_ & _ & _ & H). apply eq_true_false_abs in E; [exact E|]. apply forallb_forall. intros q Hq. apply in_multiples in Hq as [Q1 Q2]. apply negb_true_iff, Z.eqb_neq. auto.
Qed.
Lemma find_first (f : Z -> bool) l p : StronglySorted Z.lt l -> find f l = Some p -> forall q, In q l -> q < p -> f q = false.
Proof.
  intros S H q Hi Hq. destruct (f q) eqn:E; [exfalso|reflexivity]. destruct (find_lowest f l q S Hi E) as (r & Hr & Hle). rewrite H in Hr. injection Hr as <-. lia.
Qed.
(** The search at a word of the block finds the block. *)
Lemma search_first c src trgt x p pre post : src_search (slot_bits c (zlen src)) src trgt (all_indexed c src) x = Some (p, pre, post) ->
  forall q, 0 <= q < p -> q mod step_of c = 0 -> large_slot (slot_bits c (zlen src)) (nine_hash src q) <> large_slot (slot_bits c (zlen src)) (nine_hash src p).
Proof.
  intros H q Hq Qm E. assert (H' := H). apply search_some in H' as (Hi & E9 & _). unfold src_search in H. destruct (find _ _) as [p'|] eqn:F; [|discriminate H]. destruct (list_eqb _ _); [|discriminate H]. injection H as -> _ _.
  apply in_all in Hi as [Hi _]. pose proof (find_first _ _ _ (all_sorted c src) F q ltac:(apply in_all; split; [lia|exact Qm]) ltac:(lia)) as N. cbv beta in N. apply Z.eqb_neq in N. apply N. rewrite E. unfold nine_hash. now rewrite E9.
Qed.
Lemma agree_left_sub src p trgt cur n : 0 <= n -> n <= p -> n <= cur -> p <= zlen src -> cur <= zlen trgt -> sub src (p - n) n = sub trgt (cur - n) n -> n <= agree_left src p trgt cur.
Proof.
  intros Hn Hp Hc H1 H2 E. unfold agree_left. apply lcp_ge; [rewrite zlen_rev, zlen_take by lia; lia|]. rewrite !take_rev_sub by lia. now rewrite E.
Qed.
Lemma own_found c on lazy dist src trgt s t n x : clear_block c on lazy dist src trgt s t n -> own_word c src s t n x ->
  exists pre post, src_search (slot_bits c (zlen src)) src trgt (all_indexed c src) x = Some (s + (x - t), pre, post) /\ x - pre <= t + 1 /\ t + n <= x + post.
Proof.
  intros [B1 B2 B3 B4 B5 B6 B7 B8 B9 B10 B11] (W1 & W0 & W2 & W3). set (p := s + (x - t)) in *. pose proof (step_pos c) as Hp.
  assert (Hw : forall i k, 0 <= i -> 0 <= k -> i + k <= n -> sub src (s + i) k = sub trgt (t + i) k).
  { intros i k Hi Hk Hik. rewrite <- (sub_sub src s n i k), <- (sub_sub trgt t n i k) by lia. now rewrite B6. }
  assert (E9 : sub src p 9 = sub trgt x 9) by (unfold p; rewrite Hw by lia; f_equal; lia).
  assert (Hi : In p (all_indexed c src)) by (apply in_all; unfold p in *; split; [lia|exact W2]).
  unfold src_search. replace (nine_hash trgt x) with (nine_hash src p) by (unfold nine_hash; now rewrite E9).
  destruct (find_lowest (fun q => large_slot (slot_bits c (zlen src)) (nine_hash src q) =? large_slot (slot_bits c (zlen src)) (nine_hash src p)) _ p (all_sorted c src) Hi (Z.eqb_refl _)) as (q & Eq & Hle). rewrite Eq.
  apply find_some in Eq as [Hiq Hsl]. apply in_all in Hiq as [Hq1 Hq2]. assert (q = p).
  { destruct (Z.eq_dec q p) as [E|N]; [exact E|exfalso]. apply (W3 q); [lia|exact Hq2|now apply Z.eqb_eq]. }
  subst q. replace (list_eqb (sub src p 9) (sub trgt x 9)) with true by (symmetry; now apply list_eqb_eq).
  do 2 eexists. split; [reflexivity|]. split.
  - assert (A' : x - t <= agree_left src p trgt x).
    { apply (agree_left_sub src p trgt x (x - t)); try (unfold p; lia). replace (p - (x - t)) with (s + 0) by (unfold p; lia). rewrite Hw by lia. f_equal. lia. }
    unfold p in *. lia.
  - assert (A' : t + n - x <= agree_right src p trgt x).
    { apply (agree_right_sub src p trgt x (t + n - x)); try (unfold p; lia). unfold p. rewrite Hw by lia. f_equal. lia. } lia.
Qed.

(** ** The invariant *)
Definition bdone (step : Z) (ops : list cand) (t n : Z) : Prop :=
  (exists x y, t <= x <= y /\ y <= t + n /\ (x = y \/ covers ops x y) /\ n - (y - x) <= step + 7) \/ two_pieces ops t (t + n) step.
Lemma bdone_grow step ops ops' t n : (forall x y, covers ops x y -> covers ops' x y) -> bdone step ops t n -> bdone step ops' t n.
Proof.
  intros G [(x & y & A & B & C & D)|(x1 & y1 & x2 & y2 & A & B & C & D & E & F)].
  - left. exists x, y. split; [exact A|]. split; [exact B|]. split; [destruct C; auto|exact D].
  - right. exists x1, y1, x2, y2. split; [exact A|]. split; [exact B|]. split; [exact C|]. split; [destruct D; auto|]. split; [destruct E; auto|exact F].
Qed.
Definition inside (c : src_config) (src : list Z) (lazy s t n : Z) (e : est) : Prop :=
  exists z, t <= z <= e_cur e /\ (z = t \/ covers (e_ops e) t z) /\ (forall x, z <= x < e_cur e -> ~ own_word c src s t n x) /\
    match e_st e with FoundMatch len => ~ own_word c src s t n (e_cur e) /\ len < lazy | MoveForwardOneByte => ~ own_word c src s t n (e_cur e) | _ => True end.
Definition binv (c : src_config) (src : list Z) (lazy dist s t n : Z) (e : est) : Prop :=
  bdone dist (e_ops e) t n \/ e_cur e < t \/ (e_cur e <= t + n - 9 /\ inside c src lazy s t n e).
Lemma covers_less ops x y x' y' : x <= x' -> y' <= y -> covers ops x y -> covers ops x' y'.
Proof. intros A B (d & D1 & D2 & D3). exists d. split; [exact D1|]. lia. Qed.
(** Past the last word of the block. *)
Definition dense (c : src_config) (src : list Z) (dist s t n : Z) : Prop := forall z, t <= z -> z + dist <= t + n - 8 -> exists x, z <= x < z + dist /\ own_word c src s t n x.
Lemma inside_done c src dist s t n ops z cur : 1 <= dist -> dense c src dist s t n -> 10 <= n -> t <= z <= cur -> (z = t \/ covers ops t z) -> (forall x, z <= x < cur -> ~ own_word c src s t n x) -> t + n - 9 < cur -> bdone dist ops t n.
Proof.
  intros Hd D Hn Hz Hc Hw Hcur. left. exists t, (Z.min z (t + n)). split; [lia|]. split; [lia|]. split.
  - destruct Hc as [Hc|Hc]; [left; lia|right]. apply (covers_less ops t z); [lia|lia|exact Hc].
  - destruct (Z_le_dec (z + dist) (t + n - 8)) as [L|L]; [|lia]. exfalso. destruct (D z ltac:(lia) L) as (x & X1 & X2). apply (Hw x); [lia|exact X2].
Qed.
Lemma inside_gap c src dist s t n z cur : dense c src dist s t n -> t <= z <= cur -> (forall x, z <= x < cur -> ~ own_word c src s t n x) -> cur <= t + n - 9 -> cur - z <= dist - 1.
Proof.
  intros D Hz Hw Hcur. destruct (Z_le_dec (cur - z) (dist - 1)) as [L|L]; [exact L|exfalso].
  destruct (D z ltac:(lia) ltac:(lia)) as (x & X1 & X2). apply (Hw x); [lia|exact X2].
Qed.

Lemma estep_binv m src trgt lazy mx e e' c on dist start sm s t n : Forall is_byte trgt -> zlen trgt < 2 ^ 63 -> zlen src < 2 ^ 63 -> mx = zlen trgt -> e_cur e + 4 < mx -> 0 <= start -> one_window c src start -> 0 < lazy ->
  clear_block c on lazy dist src trgt s t n -> (on = false -> e_trgt e = None) ->
  einv src trgt mx e -> minv e -> e_src e = Some sm -> ssinv c src trgt start e sm -> estep m src trgt lazy mx e = Ok e' -> binv c src lazy dist s t n e -> binv c src lazy dist s t n e'.
Proof.
  intros Hb Hlt Hls Hmx Hc Hst O HL B Hon I M Es SI H R. assert (Hl64 : zlen trgt < 2 ^ 64) by lia. assert (Hs64 : zlen src < 2 ^ 64) by lia. assert (Hmx' : mx <= zlen trgt) by lia.
  assert (Gr : forall x y, covers (e_ops e) x y -> covers (e_ops e') x y) by (intros x y; exact (estep_grow m src trgt lazy mx e e' x y Hb Hl64 Hs64 Hmx' Hc I H)).
  assert (I' : einv src trgt mx e') by exact (estep_inv m src trgt lazy mx e e' Hb Hl64 Hs64 Hmx' Hc I H).
  pose proof (b_s _ _ _ _ _ _ _ _ _ B) as Bs. pose proof (b_t _ _ _ _ _ _ _ _ _ B) as Bt. pose proof (b_n _ _ _ _ _ _ _ _ _ B) as Bn. pose proof (b_sn _ _ _ _ _ _ _ _ _ B) as Bsn. pose proof (b_tn _ _ _ _ _ _ _ _ _ B) as Btn. pose proof (b_dist _ _ _ _ _ _ _ _ _ B) as Bd. assert (Bde : dense c src dist s t n) by exact (b_dense _ _ _ _ _ _ _ _ _ B). pose proof (step_pos c) as Hp.
  destruct R as [R|R]; [left; exact (bdone_grow _ _ _ _ _ Gr R)|].
  (* arriving at a position from the last one *)
  assert (Arr : forall z, t <= z <= e_cur e' -> (z = t \/ covers (e_ops e') t z) -> (forall x, z <= x < e_cur e' -> ~ own_word c src s t n x) -> (e_st e' = StartNewMatch \/ e_st e' = TryMatch) -> binv c src lazy dist s t n e').
  { intros z Z1 Z2 Z3 Z4. destruct (Z_le_dec (e_cur e') (t + n - 9)) as [L|L].
    - right. right. split; [exact L|]. exists z. split; [exact Z1|]. split; [exact Z2|]. split; [exact Z3|]. destruct Z4 as [-> | ->]; exact Logic.I.
    - left. exact (inside_done c src dist s t n (e_ops e') z (e_cur e') Bd Bde Bn Z1 Z2 Z3 ltac:(lia)). }
  assert (H' := H). unfold estep in H. destruct (e_st e) as [| |len|] eqn:Est.
  - (* StartNewMatch *)
    unfold start_new_match in H. apply bind_ok in H as ([r b] & _ & H). apply bind_ok in H as (s' & _ & H). apply bind_ok in H as (t' & _ & H). injection H as <-.
    destruct R as [R|(R & z & Z1 & Z2 & Z3 & _)]; [right; left; exact R|]. apply (Arr z); cbn [e_cur e_ops e_st]; auto.
  - (* TryMatch *)
    pose proof (try_match_cases m src trgt mx e e' Hb Hl64 Hs64 Hmx' Hc Est I H) as (Ec & _ & _ & _ & Er & Cs).
    destruct R as [R|(R & z & Z1 & Z2 & Z3 & _)]; [right; left; lia|].
    assert (Nr : e_run e <> 4).
    { intro E4. destruct I as [_ _ _ _ _ _ _ _ I9]. rewrite Est in I9. destruct I9 as [_ (_ & _ & I9)]. rewrite E4 in I9. specialize (I9 ltac:(lia)). replace (e_cur e + 4 - 4) with (e_cur e) in I9 by lia.
      exact (b_run _ _ _ _ _ _ _ _ _ B (e_cur e) _ ltac:(lia) I9). }
    assert (Sr : find_best_src_match m sm src trgt = Ok (src_search (slot_bits c (zlen src)) src trgt (all_indexed c src) (e_cur e))) by (apply (ssinv_search m c src trgt start mx e sm Hlt Hls Hst O I Est ltac:(lia) Es SI)).
    destruct Cs as [(E4 & _)|(_ & Cs)]; [contradiction|].
    destruct (own_word_dec c src s t n (e_cur e)) as [W|W].
    + (* at a word *)
      left. destruct (own_found c on lazy dist src trgt s t n (e_cur e) B W) as (pre0 & post0 & Ef & F1 & F2). rewrite Ef in Sr.
      destruct Cs as [(s' & sp & pre & post & ops & E1 & _ & E2 & E3 & E4 & E5 & E6 & E7)|(E1 & _)].
      * rewrite Es in E1. injection E1 as <-. rewrite Sr in E2. injection E2 as ? ? ?. subst sp pre0 post0. left. exists (t + 1), (t + n). split; [lia|]. split; [lia|]. split; [|lia].
        right. rewrite E6. apply covers_head; unfold c_end; cbn [c_pos c_len]; lia.
      * destruct (E1 sm Es ltac:(lia)) as (r & E2 & E3). rewrite Sr in E2. injection E2 as <-. right. unfold minv in M. rewrite Est in M. destruct W as [W _]. specialize (M ltac:(lia)).
        exists t, z, (e_cur e), (t + n). split; [lia|]. split; [lia|]. split; [lia|]. split; [destruct Z2 as [Z2|Z2]; [left; lia|right; now apply Gr]|]. split.
        -- right. apply Gr. destruct I as [_ _ _ _ I5 _ _ _ _]. destruct (e_ops e) as [|h ops]; [cbn [last_end] in M; lia|]. cbn [last_end head_pos_le] in M, I5. apply covers_head; unfold c_end; lia.
        -- pose proof (inside_gap c src dist s t n z (e_cur e) Bde ltac:(lia) Z3 R). lia.
    + (* elsewhere *)
      right. right. split; [lia|]. exists z. split; [lia|]. split; [destruct Z2 as [Z2|Z2]; [now left|right; now apply Gr]|]. rewrite Ec. split; [exact Z3|].
      destruct Cs as [(s' & sp & pre & post & ops & E1 & _ & E2 & E3 & E4 & E5 & E6 & ->)|(_ & [(st & len & E1 & E2 & ->)|(_ & -> & _)])]; [| |exact W]; (split; [exact W|]).
      * rewrite Es in E1. injection E1 as <-. rewrite Sr in E2. injection E2 as E2. pose proof (search_first c src trgt (e_cur e) sp pre post E2) as Hfst. apply search_some in E2 as (Hi & _ & _ & Hlen). apply in_all in Hi as [Hi1 Hi2].
        destruct I' as [_ _ _ [I4 _] _ _ _ _ _]. rewrite E6 in I4. apply Forall_cons_iff in I4 as [(C1 & C2 & C3 & C4 & C5 & C6) _]. unfold c_end in C3. cbn [c_pos c_len] in C1, C2, C3.
        assert (Es6 : sub src sp post = sub trgt (e_cur e) post).
        { pose proof (f_equal (fun l => sub l pre post) C6) as Q. cbv beta in Q. pose proof (iv_min _ _ _ _ I). rewrite !sub_sub in Q by lia. replace (e_cur e - pre + pre) with (e_cur e) in Q by lia. replace (sp - pre + pre) with sp in Q by lia. now symmetry. }
        pose proof (iv_min _ _ _ _ I). destruct (b_src _ _ _ _ _ _ _ _ _ B (e_cur e) sp post ltac:(lia) ltac:(lia) Hi2 ltac:(lia) ltac:(lia) ltac:(lia) Es6) as [Q|Q]; [|exact Q].
        exfalso. apply W. unfold own_word. replace (s + (e_cur e - t)) with sp by lia. split; [lia|]. split; [lia|]. split; [exact Hi2|]. exact Hfst.
      * destruct I' as [_ _ _ [I4 _] _ _ _ _ _]. rewrite E1 in I4. apply Forall_cons_iff in I4 as [(C1 & C2 & C3 & C4 & C5 & C6) _]. unfold c_end in C3. cbn [c_pos c_len] in C1, C2, C3.
        destruct on; [exact (b_trgt _ _ _ _ _ _ _ _ _ B eq_refl (e_cur e) st len ltac:(lia) ltac:(lia) ltac:(lia) ltac:(lia) ltac:(lia) (eq_sym C6))|].
        exfalso. clear -H Est E1 Hon. specialize (Hon eq_refl). unfold try_match in H. apply bind_ok in H as (e1 & H1 & H). apply try_run_same in H1 as (R1 & R2 & R3 & R4 & R5).
        apply bind_ok in H as (r & Hr & H). destruct r as [e2|].
        { injection H as <-. unfold take_run in Hr. destruct (_ && _); [|discriminate Hr]. apply bind_ok in Hr as (w & _ & Hr). apply bind_ok in Hr as (u & _ & Hr). injection Hr as <-. discriminate E1. }
        apply bind_ok in H as (o & Es' & H). destruct o as [e2|].
        { injection H as <-. unfold try_src in Es'. destruct (e_src e1) as [s'|]; [|discriminate Es']. cbv zeta in Es'. destruct (e_cur e1 + 9 <=? mx); [|discriminate Es']. apply bind_ok in Es' as (u & _ & Es'). apply bind_ok in Es' as (r & _ & Es').
          destruct r as [[[sp pre] post]|]; [|discriminate Es']. destruct (post >=? e_min e1); [|discriminate Es']. apply bind_ok in Es' as (st' & _ & Es'). apply bind_ok in Es' as (ops & Ec & Es'). apply bind_ok in Es' as (ss & _ & Es').
          apply bind_ok in Es' as (u1 & _ & Es'). apply bind_ok in Es' as (u2 & _ & Es'). injection Es' as <-. discriminate E1. }
        apply bind_ok in H as (o & Et & H). unfold try_trgt in Et. assert (En : e_trgt e1 = None) by congruence. rewrite En in Et. injection Et as <-. injection H as <-. cbn [e_ops] in E1.
        assert (Q : e_ops e1 = e_ops e) by congruence. rewrite Q in E1. clear -E1. revert E1. generalize (MTrgt st len (e_cur e)). intros k E. assert (length (e_ops e) = length (k :: e_ops e)) by congruence. cbn [length] in *. lia.
  - (* FoundMatch *)
    unfold inside in R. rewrite Est in R. destruct I as [I1 I2 I3 I4 I5 I6 I7 I8 I9]. rewrite Est in I9. destruct I9 as (I9 & I10 & _).
    assert (Hd : covers (e_ops e) (e_cur e) (e_cur e + len)).
    { destruct (e_ops e) as [|h ops]; [cbn [last_end] in I9; lia|]. cbn [last_end head_pos_le] in I9, I5. apply covers_head; unfold c_end; lia. }
    unfold found_match in H. apply bind_ok in H as (l & Hl & H). assert (El : l = mx - 1) by (rewrite usub_ok in Hl by lia; congruence). subst l.
    destruct ((lazy >? 0) && (len <? lazy) && (e_cur e + len <? mx - 1)) eqn:Ez; injection H as <-.
    + destruct R as [R|(R & z & Z1 & Z2 & Z3 & Z4 & Z5)]; [right; left; exact R|]. right. right. cbn [e_cur]. split; [exact R|]. exists z. cbn [e_cur e_ops e_st]. auto.
    + destruct R as [R|(R & z & Z1 & Z2 & Z3 & Z4 & Z5)].
      * destruct (Z_lt_dec (e_cur e + len) t) as [L|L]; [right; left; exact L|]. apply (Arr (e_cur e + len)); cbn [e_cur e_ops e_st]; [lia| |lia|now left].
        right. apply (covers_less (e_ops e) (e_cur e) (e_cur e + len)); [lia|lia|exact Hd].
      * left. right. apply andb_false_iff in Ez. assert (L : mx - 1 <= e_cur e + len) by (destruct Ez as [Ez|Ez]; [apply andb_false_iff in Ez; lia|lia]). cbn [e_ops].
        exists t, z, (e_cur e), (Z.max (e_cur e) (t + n - 1)). split; [lia|]. split; [lia|]. split; [lia|]. split; [destruct Z2 as [Z2|Z2]; [left; lia|now right]|]. split.
        -- right. apply (covers_less (e_ops e) (e_cur e) (e_cur e + len)); [lia|lia|exact Hd].
        -- pose proof (inside_gap c src dist s t n z (e_cur e) Bde ltac:(lia) Z3 R). lia.
  - (* MoveForwardOneByte *)
    unfold inside in R. rewrite Est in R.
    unfold move_forward in H. apply bind_ok in H as (cc & _ & H). apply bind_ok in H as (s' & _ & H). apply bind_ok in H as (t' & _ & H). injection H as <-.
    destruct R as [R|(R & z & Z1 & Z2 & Z3 & Z4)].
    + destruct (Z_lt_dec (e_cur e + 1) t) as [L|L]; [right; left; exact L|]. apply (Arr t); cbn [e_cur e_ops e_st]; [lia|now left|lia|now right].
    + apply (Arr z); cbn [e_cur e_ops e_st]; [lia|exact Z2| |now right]. intros x Hx. destruct (Z.eq_dec x (e_cur e)) as [->|]; [exact Z4|apply Z3; lia].
Qed.

(** ** The loop *)
Lemma estep_none m src trgt lazy mx e e' : Forall is_byte trgt -> zlen trgt < 2 ^ 64 -> zlen src < 2 ^ 64 -> mx <= zlen trgt -> e_cur e + 4 < mx -> einv src trgt mx e ->
  estep m src trgt lazy mx e = Ok e' -> e_trgt e = None -> e_trgt e' = None.
Proof.
  intros Hb Hlt Hls Hmx Hc I H N. unfold estep in H. destruct (e_st e) as [| |len|] eqn:Est.
  - unfold start_new_match in H. apply bind_ok in H as ([r b] & _ & H). apply bind_ok in H as (s & _ & H). apply bind_ok in H as (t & Ht & H). rewrite N in Ht. injection Ht as <-. injection H as <-. reflexivity.
  - pose proof (try_match_cases m src trgt mx e e' Hb Hlt Hls Hmx Hc Est I H) as (_ & _ & _ & -> & _). exact N.
  - unfold found_match in H. apply bind_ok in H as (l & _ & H). destruct (_ && _ && _); injection H as <-; exact N.
  - unfold move_forward in H. apply bind_ok in H as (cc & _ & H). apply bind_ok in H as (t & Ht & H). rewrite N in Ht. injection Ht as <-. apply bind_ok in H as (s & _ & H). injection H as <-. reflexivity.
Qed.
Lemma eloop_binv m src trgt lazy mx c on dist start s t n : Forall is_byte trgt -> zlen trgt < 2 ^ 63 -> zlen src < 2 ^ 63 -> mx = zlen trgt -> 0 <= start -> start + 9 < zlen trgt -> one_window c src start -> 0 < lazy ->
  clear_block c on lazy dist src trgt s t n -> forall fuel e e' sm,
  einv src trgt mx e -> minv e -> (on = false -> e_trgt e = None) -> e_src e = Some sm -> ssinv c src trgt start e sm -> binv c src lazy dist s t n e -> eloop fuel m src trgt lazy mx e = Ok e' -> binv c src lazy dist s t n e' /\ mx <= e_cur e' + 4.
Proof.
  intros Hb Hlt Hls Hmx Hst Hst9 O HL B. assert (Hl64 : zlen trgt < 2 ^ 64) by lia. assert (Hs64 : zlen src < 2 ^ 64) by lia. assert (Hmx' : mx <= zlen trgt) by lia.
  induction fuel as [|k IH]; intros e e' sm I M Hon Es SI R H; cbn [eloop] in H; destruct (e_cur e + 4 >=? mx) eqn:E; try discriminate;
    try (injection H as <-; split; [exact R|lia]).
  apply bind_ok in H as (e1 & H1 & H). assert (Hc : e_cur e + 4 < mx) by lia.
  destruct (estep_ssinv m src trgt lazy mx e e1 c start sm Hlt Hst Hst9 Hmx' Hc I Es SI H1) as (sm1 & Es1 & SI1).
  apply (IH e1 e' sm1); [exact (estep_inv m src trgt lazy mx e e1 Hb Hl64 Hs64 Hmx' Hc I H1)|exact (estep_minv m src trgt lazy mx e e1 Hb Hl64 Hs64 Hmx' Hc I H1 M)| |exact Es1|exact SI1| |exact H].
  - intro Q. exact (estep_none m src trgt lazy mx e e1 Hb Hl64 Hs64 Hmx' Hc I H1 (Hon Q)).
  - exact (estep_binv m src trgt lazy mx e e1 c on dist start sm s t n Hb Hlt Hls Hmx Hc Hst O HL B Hon I M Es SI H1 R).
Qed.
Lemma encode_inner_block m ic c src trgt cs dist s t n : Forall is_byte trgt -> zlen trgt < 2 ^ 63 -> zlen src < 2 ^ 63 -> ic_src ic = Some c -> ic_naive ic = None -> hash_stop (step_of c) src <= win_size c ->
  0 < match ic_lazy ic with Some n => n | None => 90 end ->
  clear_block c (match ic_trgt ic with Some _ => true | None => false end) (match ic_lazy ic with Some n => n | None => 90 end) dist src trgt s t n ->
  encode_inner m ic src trgt = Ok cs -> bdone dist cs t n.
Proof.
  intros Hb Hlt Hls Esc Env Hw HL B H. pose proof (b_s _ _ _ _ _ _ _ _ _ B) as Bs. pose proof (b_t _ _ _ _ _ _ _ _ _ B) as Bt. pose proof (b_n _ _ _ _ _ _ _ _ _ B) as Bn. pose proof (b_sn _ _ _ _ _ _ _ _ _ B) as Bsn. pose proof (b_tn _ _ _ _ _ _ _ _ _ B) as Btn. pose proof (b_dist _ _ _ _ _ _ _ _ _ B) as Bd. assert (Bde : dense c src dist s t n) by exact (b_dense _ _ _ _ _ _ _ _ _ B). pose proof (step_pos c) as Hp.
  destruct (win_size_half c) as [W1 W2].
  rewrite encode_inner_unfold in H by (try lia; left; congruence). rewrite Env in H. unfold naive_tests in H. 
  assert (H' : (do tm <- match ic_trgt ic with None => Ok None | Some tc => do t <- trgt_build m tc trgt 0; Ok (Some t) end;
      do sm <- match ic_src ic with None => Ok None | Some sc => do s <- src_build m sc src 0 trgt; Ok (Some s) end;
      let lazy := match ic_lazy ic with Some n => n | None => 90 end in
      let e := mkE [] 0 4 0 0 StartNewMatch sm tm in
      do e <- eloop (4 * length trgt + 4) m src trgt lazy (zlen trgt) e;
      do _ <- assert_ (e_cur e <=? zlen trgt);
      let ops := rev (e_ops e) in
      Ok (if zlen trgt <? zlen trgt then ops ++ [MSrc 0 (zlen src) (zlen trgt)] else ops)) = Ok cs) by (destruct (zlen trgt >? zlen src); exact H).
  clear H. apply bind_ok in H' as (tm & Htm & H). apply bind_ok in H as (sm & Hsm & H). cbv zeta in H. apply bind_ok in H as (e & He & H). apply bind_ok in H as (u & _ & H). rewrite Z.ltb_irrefl in H. injection H as <-.
  destruct (build_rels m ic src trgt 0 tm sm ltac:(lia) Htm Hsm) as [R1 R2].
  assert (En : naive_tests None src trgt = ([], 0, zlen trgt)) by (unfold naive_tests; destruct (zlen trgt >? zlen src); reflexivity).
  pose proof (einv_start src trgt _ _ _ _ tm sm En R2 R1) as I0.
  rewrite Esc in Hsm. apply bind_ok in Hsm as (s0 & Bld & Hsm). injection Hsm as <-.
  assert (O : one_window c src 0) by (unfold one_window; lia).
  assert (S0 : ssinv c src trgt 0 (mkE [] 0 4 0 0 StartNewMatch (Some s0) tm) s0).
  { destruct (src_build_exact m c src trgt 0 s0 Hls ltac:(lia) ltac:(lia) Bld) as (tb & nx & Eq & C & Hh & Hnx). split; [exact C|]. rewrite Eq. cbn [sm_hash sm_pos sm_table sm_next e_cur]. split; [reflexivity|]. split; [lia|].
    exists [0]. split; [exists []; reflexivity|]. split; [constructor; [lia|constructor]|]. split; [exact Hh|]. intros [O1 O2]. split; [reflexivity|]. rewrite Hnx. unfold src_window. cbv zeta. replace (0 <? win_size c / 2) with true by lia.
    replace (hash_stop (step_of c) src <=? Z.min (win_size c) (hash_stop (step_of c) src)) with true by lia. reflexivity. }
  set (lazy := match ic_lazy ic with Some n => n | None => 90 end) in *. clearbody lazy.
  destruct (eloop_binv m src trgt lazy (zlen trgt) c _ dist 0 s t n Hb Hlt Hls eq_refl ltac:(lia) ltac:(lia) O HL B (4 * length trgt + 4)%nat _ e s0 I0 Logic.I) as [Q Hend]; [|reflexivity|exact S0| |exact He|].
  - cbn [e_trgt]. destruct (ic_trgt ic); [discriminate|]. intros _. injection Htm as <-. reflexivity.
  - unfold binv. cbn [e_cur e_ops]. destruct (Z.eq_dec t 0) as [->|]; [|right; left; lia]. right. right. split; [lia|]. exists 0. cbn [e_cur e_ops e_st]. split; [lia|]. split; [now left|]. split; [lia|exact Logic.I].
  - destruct Q as [Q|[Q|[Q _]]]; [|lia|lia]. apply (bdone_grow _ (e_ops e)); [|exact Q]. intros x y (d & D1 & D2). exists d. split; [now rewrite <- in_rev|exact D2].
Qed.
Lemma translate_done m src trgt cs ops step t n : Forall is_byte trgt -> zlen trgt < 2 ^ 64 -> zlen src < 2 ^ 64 -> Forall (cand_sound src trgt) cs -> cands_ordered cs -> 0 <= t ->
  bdone step cs t n -> translate_inner_ops m trgt cs = Ok ops -> literals_in t (t + n) 0 ops <= step + 26.
Proof.
  intros Hb Hl Hls Hs Ho Ht [(x & y & A & B & C & D)|T] H; [|exact (translate_two m src trgt cs ops t (t + n) step Hb Hl Hls Hs Ho Ht T H)].
  apply (translate_lits m src trgt cs ops t (t + n) (step + 26) Hb Hl Hls Hs Ho); [lia| | |exact H].
  - intros one rest r -> Hr _. apply Forall_cons_iff in Hs as [H1 H2]. pose proof (cov_sub x t y (t + n) r ltac:(lia) ltac:(lia)) as S.
    destruct C as [->|(d & D1 & D2 & D3)]; [pose proof (cov_nonneg t (t + n) r); lia|].
    pose proof (loss_any m src trgt Hl d x y D2 D3 rest one r H1 H2 Ho D1 Hr). lia.
  - intros ->. destruct C as [->|(d & [] & _)]. lia.
Qed.
