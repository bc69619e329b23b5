(** Blocks of the dictionary that stand in the target are not resent. Property C108. *)
From Verif Require Import Base Spec SpecEnc SpecLit SpecApi MCommon MHasher MHashmap MOpMaker MTrgtMatcher MSrcMatcher MEncInner MEncode MLevels PBase PDecoder POpMaker PEncInner PEncode PTotal TOpMaker PFind PLoss PRuns TEncode TFind2 TSrcSearch PBlock.
Ltac Zify.zify_post_hook ::= idtac.
Arguments Z.add : simpl never.
Arguments Z.sub : simpl never.
Arguments Z.mul : simpl never.
Arguments Z.pow : simpl never.
Arguments Z.div : simpl never.
Arguments Z.modulo : simpl never.

(** C108. Of a block that the target shares with the dictionary at most [dist + 26] bytes are sent as literals, wherever it stands in both and whatever surrounds it, where [dist] is the greatest distance between words of
    the block that the index holds (indexed, and the first in their slot), if nothing stands in its way ([clear_block], PBlock.v): it has no four equal bytes in a row, and at none of its positions something
    that is as long as the lazy limit matches at another place. *)
Theorem C108_block_not_resent : forall m m' cd c sc src trgt patch, comp_lossless cd (cf_comp c) trgt ->
  Forall is_byte trgt -> zlen trgt < 2 ^ 63 -> zlen src < 2 ^ 63 -> cf_src c = Some sc -> cf_naive c = None -> 0 < lazy_of c -> zlen src <= win_size sc ->
  encode m cd c (Some src) trgt = (patch, Ok tt) ->
  exists ops, reads_as m' cd patch ops /\ run_ops src [] ops = Some trgt /\
    forall dist s t n, clear_block sc (match cf_trgt c with Some _ => true | None => false end) (lazy_of c) dist src trgt s t n -> literals_in t (t + n) 0 ops <= dist + 26.
Proof.
  intros m m' cd c sc src trgt patch Hcd Hb Ht Hs Esc Env HL Hw H. destruct (encode_reads m m' cd c (Some src) trgt patch Hcd Hb Ht Hs H) as (cs & ops & E1 & S1 & S2 & E2 & Hr & Hg & Hrd). cbn [source_of] in *.
  exists ops. split; [exact Hrd|]. split; [exact Hr|]. intros dist s t n B. pose proof (step_pos sc) as Hp.
  assert (Hst : hash_stop (step_of sc) src <= win_size sc).
  { unfold hash_stop. destruct (round_bounds (Z.max 0 (zlen src - 9)) (step_of sc) Hp ltac:(lia)) as (R & _). pose proof (zlen_nonneg src). lia. }
  pose proof (encode_inner_block m (inner_of c) sc src trgt cs dist s t n Hb Ht Hs Esc Env Hst HL B E1) as D.
  exact (translate_done m src trgt cs ops dist t n Hb ltac:(lia) ltac:(lia) S1 S2 (b_t _ _ _ _ _ _ _ _ _ B) D E2).
Qed.

(** The simple case: if every indexed word of the block is the first in its slot, the distance is the step. *)
Theorem C108_all_words_held : forall c src s t n, 0 <= s -> s + n <= index_stop c src + 8 ->
  (forall p q, s <= p <= s + n - 9 -> p mod step_of c = 0 -> 0 <= q < p -> q mod step_of c = 0 -> large_slot (slot_bits c (zlen src)) (nine_hash src q) <> large_slot (slot_bits c (zlen src)) (nine_hash src p)) ->
  forall z, t <= z -> z + step_of c <= t + n - 8 -> exists x, z <= x < z + step_of c /\ own_word c src s t n x.
Proof.
  intros c src s t n Hs Hi Hf z Hz H. pose proof (step_pos c) as Hp. destruct (round_bounds (s + (z - t) + step_of c - 1) (step_of c) Hp ltac:(lia)) as (R1 & R2 & R3). set (r := round_down (s + (z - t) + step_of c - 1) (step_of c)) in *.
  exists (t + (r - s)). split; [lia|]. unfold own_word. replace (s + (t + (r - s) - t)) with r by lia. split; [lia|]. split; [lia|]. split; [exact R2|]. intros q Q1 Q2. apply Hf; [lia|exact R2|exact Q1|exact Q2].
Qed.
(** How many words the index can hold: no more than it has slots, whatever is searched for. *)
Lemma slot_range bits h : 0 <= bits <= 64 -> 0 <= h < 2 ^ 64 -> 0 <= large_slot bits h < 2 ^ bits.
Proof.
  intros Hb Hh. unfold large_slot. assert (P : 0 < 2 ^ bits) by (apply Z.pow_pos_nonneg; lia). assert (P' : 0 < 2 ^ (64 - bits)) by (apply Z.pow_pos_nonneg; lia).
  assert (A : 0 <= h / 2 ^ (64 - bits) < 2 ^ bits). { split; [apply Z.div_pos; lia|]. apply Z.div_lt_upper_bound; [lia|]. rewrite <- Z.pow_add_r by lia. replace (64 - bits + bits) with 64 by lia. lia. }
  assert (B : 0 <= h mod 2 ^ bits < 2 ^ bits) by (apply Z.mod_pos_bound; lia). set (a := h / 2 ^ (64 - bits)) in *. set (b := h mod 2 ^ bits) in *. clearbody a b.
  assert (N : 0 <= Z.lxor a b) by (apply Z.lxor_nonneg; lia). split; [exact N|].
  destruct (Z.eq_dec (Z.lxor a b) 0) as [->|Nz]; [exact P|]. apply Z.log2_lt_pow2; [lia|]. pose proof (Z.log2_lxor a b ltac:(lia) ltac:(lia)) as L.
  assert (La : forall v, 0 <= v < 2 ^ bits -> Z.log2 v < bits \/ v = 0). { intros v Hv. destruct (Z.eq_dec v 0); [now right|left]. apply Z.log2_lt_pow2; lia. }
  assert (0 < bits). { destruct (Z.eq_dec bits 0) as [->|]; [|lia]. change (2 ^ 0) with 1 in *. assert (a = 0) by lia. assert (b = 0) by lia. subst. now contradiction Nz. }
  destruct (La a A) as [?| ->], (La b B) as [?| ->]; change (Z.log2 0) with 0 in *; lia.
Qed.
Lemma slot_bits_range c n : 0 <= n < 2 ^ 63 -> 0 <= slot_bits c n <= 64.
Proof.
  intros Hn. unfold slot_bits. pose proof (step_pos c) as Hp. assert (A : 2 ^ Z.log2_up n <= 2 ^ 63). { apply Z.pow_le_mono_r; [lia|]. destruct (Z.eq_dec n 0) as [->|]; [cbn; lia|]. apply Z.log2_up_le_pow2; lia. }
  set (q := Z.min (2 ^ Z.log2_up n / 2) (win_size c) / step_of c). assert (q <= 2 ^ 62).
  { unfold q. destruct (win_size_half c) as [_ W]. assert (0 < 2 ^ Z.log2_up n) by (apply Z.pow_pos_nonneg; [lia|apply Z.log2_up_nonneg]). assert (B : 2 ^ Z.log2_up n / 2 <= 2 ^ 62) by (apply Z.div_le_upper_bound; lia). assert (0 <= 2 ^ Z.log2_up n / 2) by (apply Z.div_pos; lia).
    transitivity (Z.min (2 ^ Z.log2_up n / 2) (win_size c)); [|lia]. apply Z.div_le_upper_bound; [lia|]. nia. }
  assert (Z.log2_up (q + 1) <= 63); [|lia]. destruct (Z_le_dec (q + 1) 0); [rewrite Z.log2_up_nonpos by lia; lia|]. apply Z.log2_up_le_pow2; lia.
Qed.
Theorem C108_index_capacity : forall c src (l : list Z), zlen src < 2 ^ 63 -> NoDup l ->
  (forall p, In p l -> exists m nv lazy trgt start e s pre len, Forall is_byte trgt /\ zlen trgt < 2 ^ 63 /\ about_to_search m c nv lazy src trgt start e s /\ one_window c src start /\
    find_best_src_match m s src trgt = Ok (Some (p, pre, len))) ->
  zlen l <= 2 ^ slot_bits c (zlen src).
Proof.
  intros c src l Hs ND H. pose proof (slot_bits_range c (zlen src) ltac:(pose proof (zlen_nonneg src); lia)) as Hbits. set (bits := slot_bits c (zlen src)) in *.
  set (f := fun p => large_slot bits (nine_hash src p)).
  assert (F : forall p, In p l -> In p (all_indexed c src) /\ forall q, 0 <= q < p -> q mod step_of c = 0 -> f q <> f p).
  { intros p Hp. destruct (H p Hp) as (m & nv & lazy & trgt & start & e & s & pre & len & Hb & Hz & A & O & E). rewrite (C106_every_search_one_window m c nv lazy src trgt start e s Hb Hz Hs A O) in E. injection E as E.
    pose proof (search_first c src trgt (e_cur e) p pre len E) as X. apply search_some in E as (Hi & _). split; [exact Hi|exact X]. }
  assert (Inj : forall p q, In p l -> In q l -> f p = f q -> p = q).
  { intros p q Hp Hq E. destruct (F p Hp) as [Ip Fp], (F q Hq) as [Iq Fq]. apply in_all in Ip as [Ip1 Ip2]. apply in_all in Iq as [Iq1 Iq2].
    destruct (Z.lt_trichotomy p q) as [L|[L|L]]; [|exact L|]; exfalso; [apply (Fq p); [lia|exact Ip2|exact E]|apply (Fp q); [lia|exact Iq2|now symmetry]]. }
  assert (NDf : NoDup (map f l)).
  { clear -ND Inj. induction ND as [|x l Hx ND IH]; cbn [map]; [constructor|]. constructor; [|apply IH; intros p q Hp Hq; apply Inj; now right]. intro Hi. apply in_map_iff in Hi as (y & E & Hy). apply Hx. rewrite <- (Inj y x); [exact Hy|now right|now left|exact E]. }
  assert (Inc : incl (map f l) (range 0 (2 ^ bits))).
  { intros v Hv. apply in_map_iff in Hv as (p & <- & _). apply in_range. apply slot_range; [exact Hbits|apply nine_range]. }
  pose proof (NoDup_incl_length NDf Inc) as Len. rewrite map_length in Len. unfold range in Len. rewrite map_length, seq_length in Len. unfold zlen. assert (0 < 2 ^ bits) by (apply Z.pow_pos_nonneg; lia). lia.
Qed.

(** A test for [clear_block]: it asks more, that no byte of the block stands elsewhere. *)
Definition own_test (c : src_config) (src : list Z) (s t n x : Z) : bool :=
  let p := s + (x - t) in (t <=? x) && (x <=? t + n - 9) && (p <? index_stop c src) && (p mod step_of c =? 0) &&
  forallb (fun q => negb (large_slot (slot_bits c (zlen src)) (nine_hash src q) =? large_slot (slot_bits c (zlen src)) (nine_hash src p))) (multiples (step_of c) 0 p).
Definition clear_test (c : src_config) (dist : Z) (src trgt : list Z) (s t n : Z) : bool :=
  (0 <=? s) && (0 <=? t) && (10 <=? n) && (s + n <=? zlen src) && (t + n <=? zlen trgt) && list_eqb (sub src s n) (sub trgt t n) && (1 <=? dist) &&
  (let own := filter (own_test c src s t n) (range t (t + n - 8)) in forallb (fun z => existsb (fun x => (z <=? x) && (x <? z + dist)) own) (range t (t + n - 8 - dist + 1))) &&
  forallb (fun x => forallb (fun q => (q - s =? x - t) || negb (list_eqb (sub src q 1) (sub trgt x 1))) (multiples (step_of c) 0 (zlen src)) &&
    forallb (fun y => negb (list_eqb (sub trgt y 1) (sub trgt x 1))) (range 0 x) && negb (list_eqb (sub trgt x 1) (sub trgt (x + 1) 1))) (range t (t + n - 8)).
Lemma clear_test_ok c on lazy dist src trgt s t n : 0 < lazy -> clear_test c dist src trgt s t n = true -> clear_block c on lazy dist src trgt s t n.
Proof.
  intros HL H. unfold clear_test in H. repeat (apply andb_true_iff in H as [H ?]). pose proof (step_pos c) as Hp.
  rename H0 into T9, H1 into T8, H2 into T7, H3 into T6, H4 into T5, H5 into T4, H6 into T3, H7 into T2. rewrite forallb_forall in T9. apply list_eqb_eq in T6.
  assert (one : forall (l : list Z) a k, 0 <= a -> 1 <= k -> sub l a 1 = sub (sub l a k) 0 1) by (intros l a k Ha Hk; rewrite sub_sub by lia; f_equal; lia).
  constructor; try lia; try exact T6.
  - intros z Z1 Z2. cbv zeta in T8. rewrite forallb_forall in T8. specialize (T8 z ltac:(apply in_range; lia)). apply existsb_exists in T8 as (x & X1 & X2). apply filter_In in X1 as [_ X1]. exists x. split; [lia|].
    unfold own_test in X1. cbv zeta in X1. repeat (apply andb_true_iff in X1 as [X1 ?]). split; [lia|]. split; [lia|]. split; [lia|]. intros q Q1 Q2.
    match goal with F : forallb _ _ = true |- _ => rewrite forallb_forall in F; specialize (F q ltac:(apply in_multiples; auto)); apply negb_true_iff, Z.eqb_neq in F; exact F end.
  - intros x b Hx E. specialize (T9 x ltac:(apply in_range; lia)). apply andb_true_iff in T9 as [_ T9]. apply negb_true_iff in T9.
    assert (X : list_eqb (sub trgt x 1) (sub trgt (x + 1) 1) = true); [|congruence]. apply list_eqb_eq. pose proof (sub_sub trgt x 4 0 1 ltac:(lia) ltac:(lia) ltac:(lia) ltac:(lia)) as X1. pose proof (sub_sub trgt x 4 1 1 ltac:(lia) ltac:(lia) ltac:(lia) ltac:(lia)) as X2.
    replace (x + 0) with x in X1 by lia. rewrite <- X1, <- X2, E. reflexivity.
  - intros x q len Hx Hq Qm Hlen L1 L2 E. specialize (T9 x ltac:(apply in_range; lia)). apply andb_true_iff in T9 as [T9 _]. apply andb_true_iff in T9 as [T9 _]. rewrite forallb_forall in T9.
    destruct (Z_lt_dec len lazy) as [|N]; [now right|left]. specialize (T9 q ltac:(apply in_multiples; split; [lia|exact Qm])). apply orb_true_iff in T9 as [T9|T9]; [lia|exfalso]. apply negb_true_iff in T9.
    assert (X : list_eqb (sub src q 1) (sub trgt x 1) = true); [|congruence]. apply list_eqb_eq. rewrite (one src q len), (one trgt x len) by lia. now rewrite E.
  - intros _ x y len Hx Hy Hlen L1 L2 E. specialize (T9 x ltac:(apply in_range; lia)). apply andb_true_iff in T9 as [T9 _]. apply andb_true_iff in T9 as [_ T9]. rewrite forallb_forall in T9.
    destruct (Z_lt_dec len lazy) as [L|N]; [exact L|exfalso]. specialize (T9 y ltac:(apply in_range; lia)). apply negb_true_iff in T9.
    assert (X : list_eqb (sub trgt y 1) (sub trgt x 1) = true); [|congruence]. apply list_eqb_eq. rewrite (one trgt y len), (one trgt x len) by lia. now rewrite E.
Qed.
(** A dictionary of all 256 bytes in some order, indexed every 4 bytes: of the 58 words indexed the 32 slots hold 28. Ninety-two bytes of it between other bytes: the distance is 16. *)
Definition ex108_src := map (fun i => (Z.of_nat i * 167 + 13) mod 256) (seq 0 256).
Definition ex108_trgt := [13; 180; 13] ++ sub ex108_src 5 92 ++ [13; 180; 13; 180; 13; 180; 13; 180; 13; 180].
Definition ex108_cfg := mkConfig (Some (mkSC 4 None)) None None Interleaved 16777215 None None.
Example C108_example : clear_block (mkSC 4 None) false 90 16 ex108_src ex108_trgt 5 3 92 /\ zlen ex108_src <= win_size (mkSC 4 None) /\ lazy_of ex108_cfg = 90 /\ comp_lossless toy (cf_comp ex108_cfg) ex108_trgt /\
  Forall is_byte ex108_trgt /\ forall m, encode m toy ex108_cfg (Some ex108_src) ex108_trgt = ([0; 3; 105; 131; 13; 180; 13; 0; 92; 0; 10; 138; 13; 180; 13; 180; 13; 180; 13; 180; 13; 180], Ok tt).
Proof.
  split; [apply clear_test_ok; [lia|vm_compute; reflexivity]|]. split; [vm_compute; discriminate|]. split; [reflexivity|]. split; [exact I|].
  split; [apply Forall_forall; intros v Hv; assert (Q : forallb (fun v => (0 <=? v) && (v <? 256)) ex108_trgt = true) by (vm_compute; reflexivity); rewrite forallb_forall in Q; specialize (Q v Hv); unfold is_byte; lia|].
  intros []; vm_compute; reflexivity.
Qed.
Example C108_capacity_example : slot_bits (mkSC 4 None) (zlen ex108_src) = 5 /\ zlen (all_indexed (mkSC 4 None) ex108_src) = 58 /\ zlen (filter (own_test (mkSC 4 None) ex108_src 0 0 256) (range 0 256)) = 28.
Proof. vm_compute. repeat split; reflexivity. Qed.
Example C108_capacity_hypotheses : forall p, In p [16] -> exists m nv lazy trgt start e s pre len, Forall is_byte trgt /\ zlen trgt < 2 ^ 63 /\ about_to_search m (mkSC 16 None) nv lazy (counting 60) trgt start e s /\ one_window (mkSC 16 None) (counting 60) start /\
  find_best_src_match m s (counting 60) trgt = Ok (Some (p, pre, len)).
Proof.
  intros p [<-|[]]. destruct (C106_extension_exact_example Debug) as (e & s & A & _ & _ & C). exists Debug, None, 90, (drop 5 (counting 60)), 0, e, s, 10, 44.
  split; [apply Forall_forall; intros v Hv; assert (Q : forallb (fun v => (0 <=? v) && (v <? 256)) (drop 5 (counting 60)) = true) by (vm_compute; reflexivity); rewrite forallb_forall in Q; specialize (Q v Hv); unfold is_byte; lia|].
  split; [vm_compute; reflexivity|]. split; [exact A|]. split; [vm_compute; split; [reflexivity|discriminate]|exact C].
Qed.
Print Assumptions C108_block_not_resent.
Print Assumptions C108_all_words_held.
Print Assumptions C108_index_capacity.
