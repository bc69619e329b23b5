(** Property C88: until the first long match the target matcher works with wrong checksums and finds nothing. *)
From Verif Require Import Base Spec SpecEnc MCommon MWriter MReader MDecoder MOpMaker MHasher MHashmap MTrgtMatcher MSrcMatcher MEncInner MEncode
  SpecApi PBase PCommon PStream PSection PWriter PDecoder PPatch POpMaker PHasher PHashmap PEncInner PEncode TEncode TTrunc TOff.
From Coq Require Import Znumtheory Zpow_facts.
Ltac Zify.zify_post_hook ::= idtac.
Arguments Z.add : simpl never.
Arguments Z.sub : simpl never.
Arguments Z.mul : simpl never.
Arguments Z.pow : simpl never.

(** ** Powers of the multiplier *)
Lemma odd_coprime b k : 0 <= k -> Z.odd b = true -> rel_prime (2 ^ k) b.
Proof.
  intros Hk Hb. apply rel_prime_sym. apply rel_prime_Zpower_r; [exact Hk|]. apply rel_prime_sym. apply prime_rel_prime; [exact prime_2|].
  intros [q Hq]. rewrite Hq, Z.odd_mul in Hb. cbn in Hb. rewrite andb_false_r in Hb. discriminate.
Qed.
Lemma cancel_odd k a b : 0 <= k -> Z.odd b = true -> (2 ^ k | a * b) -> (2 ^ k | a).
Proof. intros Hk Hb H. apply (Gauss (2 ^ k) b a); [rewrite Z.mul_comm; exact H|apply odd_coprime; assumption]. Qed.
Lemma pow_mod4 n : 0 <= n -> SMALL_MULT ^ n mod 4 = 1.
Proof.
  intro H. pattern n. apply natlike_ind; [reflexivity| |exact H]. intros x Hx IH. rewrite Z.pow_succ_r by exact Hx. rewrite Z.mul_mod, IH by lia. reflexivity.
Qed.
(** The geometric sum: M^n - 1 = (M - 1) * geo n, and geo n has the parity of n. *)
Fixpoint geo (n : nat) : Z := match n with O => 0 | S k => 1 + SMALL_MULT * geo k end.
Lemma geo_spec n : SMALL_MULT ^ Z.of_nat n - 1 = (SMALL_MULT - 1) * geo n.
Proof.
  induction n as [|k IH]; [reflexivity|]. rewrite Nat2Z.inj_succ, Z.pow_succ_r by lia. cbn [geo]. replace (SMALL_MULT * SMALL_MULT ^ Z.of_nat k - 1) with (SMALL_MULT * (SMALL_MULT ^ Z.of_nat k - 1) + (SMALL_MULT - 1)) by ring. rewrite IH. ring.
Qed.
Lemma geo_odd n : Z.odd (geo n) = Nat.odd n.
Proof. induction n as [|k IH]; [reflexivity|]. cbn [geo]. rewrite Z.odd_add, Z.odd_mul, IH, Nat.odd_succ, <- Nat.negb_odd. change (Z.odd SMALL_MULT) with true. change (Z.odd 1) with true. destruct (Nat.odd k); reflexivity. Qed.
Lemma mult_order : forall n C, (n > 0)%nat -> (2 ^ 32 | C * (SMALL_MULT ^ Z.of_nat n - 1)) -> (2 ^ 30 | C * Z.of_nat n).
Proof.
  induction n as [n IH] using (well_founded_induction Wf_nat.lt_wf). intros C Hn H. destruct (Nat.odd n) eqn:E.
  - rewrite geo_spec in H. replace (C * ((SMALL_MULT - 1) * geo n)) with (C * (SMALL_MULT - 1) * geo n) in H by ring. apply (cancel_odd 32) in H; [|lia|rewrite geo_odd; exact E].
    apply Z.divide_mul_l. change (SMALL_MULT - 1) with (4 * 785398163) in H. rewrite Z.mul_assoc in H. apply (cancel_odd 32) in H; [|lia|reflexivity]. change (2 ^ 32) with (4 * 2 ^ 30) in H. rewrite (Z.mul_comm C) in H. exact (proj1 (Z.mul_divide_cancel_l _ _ 4 ltac:(lia)) H).
  - assert (Ev : Nat.even n = true) by (rewrite <- Nat.negb_odd, E; reflexivity). apply Nat.even_spec in Ev as [j Hj]. assert (Hz : Z.of_nat n = 2 * Z.of_nat j) by lia.
    rewrite Hz. replace (C * (2 * Z.of_nat j)) with (2 * C * Z.of_nat j) by ring. apply IH; [lia|lia|].
    rewrite Hz in H. replace (2 * Z.of_nat j) with (Z.of_nat j + Z.of_nat j) in H by lia. rewrite Z.pow_add_r in H by lia. set (x := SMALL_MULT ^ Z.of_nat j) in *.
    assert (Hx : x mod 4 = 1) by (apply pow_mod4; lia). pose proof (Z.div_mod x 4 ltac:(lia)) as D. rewrite Hx in D. set (q := x / 4) in *.
    apply (cancel_odd 32 _ (2 * q + 1)); [lia|rewrite Z.odd_add, Z.odd_mul; reflexivity|]. replace (2 * C * (x - 1) * (2 * q + 1)) with (C * (x * x - 1)); [exact H|]. rewrite D. ring.
Qed.

(** ** The checksum the matcher has instead of the right one *)
Definition csum (trgt : list Z) (p : Z) : Z := calculate_small_checksum (sub trgt p 4).
Definition poll (trgt : list Z) (p : Z) : Z := (csum trgt p - csum trgt 0 * SMALL_MULT ^ p) mod 4294967296.
Lemma poll_0 trgt : poll trgt 0 = 0.
Proof. unfold poll. change (SMALL_MULT ^ 0) with 1. rewrite Z.mul_1_r, Z.sub_diag. reflexivity. Qed.
Lemma zlen4 {A} (l : list A) : zlen l = 4 -> exists a b c d, l = [a; b; c; d].
Proof. intro H. destruct l as [|a [|b [|c [|d [|e r]]]]]; rewrite ?zlen_cons in H; try (change (zlen (@nil A)) with 0 in H; lia); [eauto|pose proof (zlen_nonneg r); lia]. Qed.
Lemma csum_fwd trgt p old new : 0 <= p -> p + 4 < zlen trgt -> idx trgt p = Ok old -> idx trgt (p + 4) = Ok new ->
  update_small_checksum_fwd (csum trgt p) old new = csum trgt (p + 1).
Proof.
  intros Hp Hl Ho Hn. unfold csum. assert (H1 : sub trgt p (4 + 1) = sub trgt p 4 ++ [new]) by (apply sub_snoc; [lia|lia|exact Hn]).
  assert (H2 : sub trgt p (1 + 4) = sub trgt p 1 ++ sub trgt (p + 1) 4) by (rewrite (sub_split trgt p (1 + 4) 1) by lia; replace (1 + 4 - 1) with 4 by lia; reflexivity).
  rewrite (idx_sub1 _ _ _ Ho) in H2. assert (L : zlen (sub trgt p 4) = 4) by (apply zlen_sub; lia). apply zlen4 in L as (a & b & c & d & L). assert (L2 : zlen (sub trgt (p + 1) 4) = 4) by (apply zlen_sub; lia). apply zlen4 in L2 as (a' & b' & c' & d' & L2).
  change (1 + 4) with (4 + 1) in H2. rewrite H1, L, L2 in H2. cbn [app] in H2. injection H2 as <- <- <- <- <-. rewrite L, L2. apply small_fwd4.
Qed.
Lemma csum_range trgt p : csum trgt p = csum trgt p mod 4294967296.
Proof. symmetry. apply Z.mod_small. unfold csum, calculate_small_checksum. destruct (combine (sub trgt p 4) SMALL_POWERS) as [|x l] using rev_ind; [cbn; lia|]. rewrite fold_left_app. cbn [fold_left]. unfold to_u32. apply Z.mod_pos_bound. reflexivity. Qed.
Lemma poll_fwd trgt p old new : 0 <= p -> p + 4 < zlen trgt -> idx trgt p = Ok old -> idx trgt (p + 4) = Ok new ->
  update_small_checksum_fwd (poll trgt p) old new = poll trgt (p + 1).
Proof.
  intros Hp Hl Ho Hn. pose proof (csum_fwd trgt p old new Hp Hl Ho Hn) as H. unfold poll. rewrite small_fwd_explicit. rewrite (csum_range trgt p) in H. rewrite small_fwd_explicit in H. rewrite <- H.
  rewrite Zminus_mod_idemp_l. f_equal. rewrite Z.pow_add_r by lia. change (SMALL_MULT ^ 1) with SMALL_MULT. ring.
Qed.
(** No two positions of equal contents have equal checksums. *)
Definition far_apart (trgt : list Z) : Prop := forall k, 0 < k < zlen trgt -> ~ (2 ^ 30 | csum trgt 0 * k).
Lemma poll_distinct trgt i j : far_apart trgt -> 0 <= i < j -> j < zlen trgt -> sub trgt i 4 = sub trgt j 4 -> poll trgt i <> poll trgt j.
Proof.
  intros F Hi Hj Hs H. unfold poll, csum at 1 3 in H. rewrite Hs in H. set (s := calculate_small_checksum (sub trgt j 4)) in *.
  assert (D : (2 ^ 32 | (s - csum trgt 0 * SMALL_MULT ^ i) - (s - csum trgt 0 * SMALL_MULT ^ j))).
  { apply Z.mod_divide; [lia|]. change (2 ^ 32) with 4294967296. rewrite Zminus_mod, H, Z.sub_diag. reflexivity. }
  replace (s - csum trgt 0 * SMALL_MULT ^ i - (s - csum trgt 0 * SMALL_MULT ^ j)) with (csum trgt 0 * (SMALL_MULT ^ (j - i) - 1) * SMALL_MULT ^ i) in D.
  2:{ replace j with ((j - i) + i) at 2 by lia. rewrite Z.pow_add_r by lia. ring. }
  apply (cancel_odd 32) in D; [|lia|].
  2:{ pose proof (pow_mod4 i ltac:(lia)) as M4. rewrite (Z.div_mod (SMALL_MULT ^ i) 4), M4 by lia. rewrite Z.odd_add, Z.odd_mul. reflexivity. }
  apply (F (j - i)); [lia|]. replace (j - i) with (Z.of_nat (Z.to_nat (j - i))) by lia. apply mult_order; [lia|]. rewrite Z2Nat.id by lia. exact D.
Qed.

(** ** What the tables hold: positions before [B] with the wrong checksum of their place *)
Definition bucket_dirty (trgt : list Z) (B : Z) (b : bucket) : Prop := b_value b = 0 \/ (0 <= b_value b - 1 < B /\ b_hash b = poll trgt (b_value b - 1)).
Definition tm_dirty (trgt : list Z) (B : Z) (t : trgt_matcher) : Prop :=
  (forall i, bucket_dirty trgt B (t_buckets (tm_table t) i)) /\ (forall i, bucket_dirty trgt B (ch_pos (tm_chain t) i)).
Lemma bucket_dirty_mono trgt B B' b : B <= B' -> bucket_dirty trgt B b -> bucket_dirty trgt B' b.
Proof. intros H [E|[E1 E2]]; [left; exact E|right; split; [lia|exact E2]]. Qed.
Lemma chain_next_loop_dirty trgt B m c cur hash : (forall i, bucket_dirty trgt B (ch_pos c i)) -> forall fuel last p, chain_next_loop fuel m c last cur hash = Ok (Some p) ->
  0 <= p < B /\ poll trgt p = hash.
Proof.
  intros D. induction fuel as [|k IH]; intros last p H; cbn [chain_next_loop] in H; [discriminate|]. destruct (ch_cap c =? 0); [discriminate|]. cbv zeta in H.
  destruct (negb _); [discriminate|]. pose proof (D (Z.land last (ch_mask c))) as Db. set (b := ch_pos c (Z.land last (ch_mask c))) in *. destruct (b_value b =? 0) eqn:E0; [discriminate|]. destruct (b_value b - 1 >? last); [discriminate|]. apply bind_ok in H as (d & _ & H).
  destruct (d >=? ch_cap c); [discriminate|]. destruct (b_hash b =? hash) eqn:Eh; [|exact (IH _ _ H)]. injection H as <-. destruct Db as [E|[E1 E2]]; [lia|]. split; [lia|]. rewrite <- E2. lia.
Qed.
Lemma find_loop_dirty trgt m t : far_apart trgt -> 0 <= tm_pos t < zlen trgt -> tm_dirty trgt (tm_pos t) t -> tm_hash t = poll trgt (tm_pos t) ->
  forall fuel once last chain bl r, match once with Some p => 0 <= p < tm_pos t /\ poll trgt p = tm_hash t | None => True end ->
  find_trgt_loop fuel m t trgt once last chain None bl = Ok r -> r = None.
Proof.
  intros F Hp [_ D] Hh. induction fuel as [|k IH]; intros once last chain bl r Ho H; cbn [find_trgt_loop] in H; [discriminate|]. destruct (chain =? 0); [injection H as <-; reflexivity|].
  apply bind_ok in H as (nxt & En & H). destruct nxt as [start|]; [|injection H as <-; reflexivity]. cbv zeta in H.
  assert (Hs : 0 <= start < tm_pos t /\ poll trgt start = tm_hash t).
  { destruct once as [p|]; [injection En as <-; exact Ho|]. unfold chain_next in En. exact (chain_next_loop_dirty trgt _ m _ _ _ D _ _ _ En). }
  clear En Ho. destruct (negb (start + 4 <? tm_pos t)); [exact (IH None _ _ _ _ I H)|]. apply bind_ok in H as (a & Ea & H). apply bind_ok in H as (b & Eb & H).
  apply slice_inv in Ea as (A1 & A2 & Ea). apply slice_inv in Eb as (B1 & B2 & Eb). destruct (negb (list_eqb a b)) eqn:E; [exact (IH None _ _ _ _ I H)|]. exfalso. apply negb_false_iff, list_eqb_eq in E.
  replace (start + 4 - start) with 4 in Ea by lia. replace (tm_pos t + 4 - tm_pos t) with 4 in Eb by lia. apply (poll_distinct trgt start (tm_pos t) F); [lia|lia|congruence|destruct Hs; congruence].
Qed.
Lemma find_dirty trgt m t mm r : far_apart trgt -> 0 <= tm_pos t < zlen trgt -> tm_dirty trgt (tm_pos t) t -> tm_hash t = poll trgt (tm_pos t) ->
  find_best_trgt_match m t trgt mm = Ok r -> r = None.
Proof.
  intros F Hp D Hh H. unfold find_best_trgt_match in H. apply bind_ok in H as (tp & Et & H). destruct tp as [p|]; [|injection H as <-; reflexivity]. cbv zeta in H.
  refine (find_loop_dirty trgt m t F Hp D Hh _ _ _ _ _ _ _ H). unfold table_get in Et. cbv zeta in Et. destruct (_ && _); [|discriminate]. injection Et as Et. unfold bucket_get in Et. destruct D as [D _].
  destruct (D (bucket_idx (tm_table t) (tm_hash t))) as [E|[E1 E2]]; set (b := t_buckets (tm_table t) (bucket_idx (tm_table t) (tm_hash t))) in *; [rewrite E in Et; discriminate Et|].
  destruct (b_value b =? 0); [discriminate|]. destruct (b_hash b =? tm_hash t) eqn:Eh; [|discriminate]. injection Et as <-. split; [lia|]. rewrite <- E2. lia.
Qed.
Lemma upd_dirty trgt B f i b : (forall j, bucket_dirty trgt B (f j)) -> bucket_dirty trgt B b -> forall j, bucket_dirty trgt B (upd f i b j).
Proof. intros H Hb j. unfold upd. destruct (j =? i); auto. Qed.
Lemma store_dirty trgt t B t' : tm_dirty trgt B t -> 0 <= B -> trgt_store t (poll trgt B) B = Ok t' -> tm_dirty trgt (B + 1) t'.
Proof.
  intros [D1 D2] HB H. unfold trgt_store in H. apply bind_ok in H as ([tb r] & Et & H). apply bind_ok in H as (ch & Ec & H). injection H as <-. unfold table_insert in Et. cbv zeta in Et. destruct (_ && _); [|discriminate].
  set (i := bucket_idx (tm_table t) (poll trgt B)) in *. pose proof (bucket_set_fst (t_buckets (tm_table t) i) (poll trgt B) B) as Hf. destruct (bucket_set (t_buckets (tm_table t) i) (poll trgt B) B) as [b r'] eqn:Eb. cbn [fst] in Hf. injection Et as <- <-.
  assert (M : forall b, bucket_dirty trgt B b -> bucket_dirty trgt (B + 1) b) by (intros; apply (bucket_dirty_mono trgt B); [lia|assumption]).
  assert (Hr : match r' with SetNew => True | SetSame p => 0 <= p < B /\ poll trgt B = poll trgt p | SetEvicted h p => 0 <= p < B /\ h = poll trgt p end).
  { unfold bucket_set in Eb. destruct (D1 i) as [E|[E1 E2]]; [rewrite E in Eb; injection Eb as _ <-; exact I|]. destruct (b_value _ =? 0); [injection Eb as _ <-; exact I|]. destruct (b_hash _ =? _) eqn:Eh; injection Eb as _ <-; split; try lia. }
  split; cbn [tm_table tm_chain t_buckets].
  - apply upd_dirty; [intro j; apply M, D1|]. subst b. right. cbn [b_value b_hash]. replace (B + 1 - 1) with B by lia. split; [lia|reflexivity].
  - assert (CI : forall h p ch', 0 <= p < B -> h = poll trgt p -> chain_insert (tm_chain t) h B p = Ok ch' -> forall j, bucket_dirty trgt (B + 1) (ch_pos ch' j)).
    { intros h p ch' Hp Hh E. unfold chain_insert in E. destruct (ch_cap (tm_chain t) =? 0); [injection E as <-; intro j; apply M, D2|]. cbv zeta in E. destruct (_ && _); [|discriminate]. injection E as <-. cbn [ch_pos].
      apply upd_dirty; [intro j; apply M, D2|]. rewrite bucket_set_fst. right. cbn [b_value b_hash]. replace (p + 1 - 1) with p by lia. split; [lia|exact Hh]. }
    destruct r' as [|p|h p]; [injection Ec as <-; intro j; apply M, D2|exact (CI _ _ _ (proj1 Hr) (proj2 Hr) Ec)|exact (CI _ _ _ (proj1 Hr) (proj2 Hr) Ec)].
Qed.
Lemma forward_dirty trgt t cur t' : 0 <= cur -> cur + 4 < zlen trgt -> tm_max t = Z.max 0 (zlen trgt - 4) -> tm_pos t = cur -> tm_hash t = poll trgt cur -> tm_dirty trgt cur t ->
  trgt_forward trgt cur t = Ok t' -> tm_hash t' = poll trgt (cur + 1) /\ tm_dirty trgt (cur + 1) t'.
Proof.
  intros Hc Hl Hm Hp Hh D H. unfold trgt_forward in H. apply bind_ok in H as (t1 & E1 & H). rewrite Hh in E1. destruct (trgt_store_same _ _ _ _ E1) as (P1 & P2 & P3). pose proof (store_dirty trgt t cur t1 D Hc E1) as D1.
  rewrite P1, P2 in H. replace (tm_pos t <? tm_max t) with true in H by lia. apply bind_ok in H as (o & Eo & H). apply bind_ok in H as (n & En & H). injection H as <-. cbn [tm_set_fwd tm_hash]. rewrite P3, Hh. split; [exact (poll_fwd trgt cur o n Hc Hl Eo En)|exact D1].
Qed.
Lemma build_dirty m c trgt t : trgt_build m c trgt 0 = Ok t -> tm_hash t = 0 /\ tm_pos t = 0 /\ tm_dirty trgt 0 t.
Proof.
  unfold trgt_build. intro H. apply bind_ok in H as (eff & _ & H). apply bind_ok in H as (cap & _ & H). apply bind_ok in H as (p & _ & H). apply bind_ok in H as (tb & Et & H). apply bind_ok in H as (ch & Ec & H). cbv zeta in H. change (0 >? 0) with false in H. injection H as <-. cbn [tm_hash tm_pos]. repeat split.
  - intro i. cbn [tm_table]. unfold table_new in Et. apply bind_ok in Et as (b & _ & Et). cbv zeta in Et. apply bind_ok in Et as (s & _ & Et). injection Et as <-. left. reflexivity.
  - intro i. cbn [tm_chain]. unfold chain_new in Ec. destruct (cap =? 0); [injection Ec as <-; left; reflexivity|]. apply bind_ok in Ec as (u & _ & Ec). injection Ec as <-. left. reflexivity.
Qed.

(** ** The loop *)
Definition dinv (trgt : list Z) (mx : Z) (e : est) : Prop := no_trgt (e_ops e) /\
  (e_cur e + 4 >= mx \/ match e_trgt e with None => True | Some t => tm_hash t = poll trgt (e_cur e) /\ tm_dirty trgt (e_cur e) t /\ (e_st e = StartNewMatch -> e_cur e = 0 /\ tm_pos t = 0) end).
Definition no_long_cand (src trgt : list Z) (lazy : Z) : Prop := forall c, cand_sound src trgt c -> c_trgt c = false -> c_len c < lazy.
Lemma usub1 m mx l : 1 <= mx < 2 ^ 64 -> usub m mx 1 = Ok l -> l = mx - 1.
Proof. intros H E. rewrite usub_ok in E by lia. injection E as <-. reflexivity. Qed.
Lemma estep_dinv m src trgt lazy mx e e' : zlen trgt < 2 ^ 64 -> far_apart trgt -> no_long_cand src trgt lazy -> 0 < lazy -> mx <= zlen trgt -> e_cur e + 4 < mx -> einv src trgt mx e -> dinv trgt mx e ->
  estep m src trgt lazy mx e = Ok e' -> dinv trgt mx e'.
Proof.
  intros Hlt F NL HL Hmx Hc V [N D]. destruct D as [D|D]; [lia|]. destruct V as [I1 I2 I3 I4 I5 I6 I7 I8 I9]. unfold estep. destruct (e_st e) as [| |len|] eqn:Est; cbn [is_start] in *.
  - unfold start_new_match. intro E. apply bind_ok in E as ([r b] & _ & E). apply bind_ok in E as (sm & _ & E). apply bind_ok in E as (tm & Es & E). injection E as <-. split; [exact N|right]. cbn [e_trgt e_cur e_st].
    destruct (e_trgt e) as [t|]; cbn [opt_map] in Es; [|injection Es as <-; exact I]. apply bind_ok in Es as (t1 & Et & Es). injection Es as <-. destruct D as (D1 & D2 & D3). destruct (D3 eq_refl) as [D4 D5]. destruct I8 as (R1 & R2 & R3).
    unfold trgt_seek in Et. replace (tm_pos t <? tm_max t) with true in Et by lia. replace (tm_pos t + 4 >? e_cur e) with true in Et by lia. rewrite D4, D5 in Et. cbn [Z.to_nat Z.sub roll_small bind] in Et. change (Z.to_nat (0 - 0)) with O in Et. cbn [roll_small bind] in Et. injection Et as <-.
    rewrite D4 in *. cbn [tm_set_fwd tm_hash]. split; [exact D1|]. split; [exact D2|discriminate].
  - unfold try_match. intro E. apply bind_ok in E as (e1 & E1 & E).
    assert (H1 : e_trgt e1 = e_trgt e /\ e_ops e1 = e_ops e /\ e_cur e1 = e_cur e).
    { unfold try_run in E1. apply bind_ok in E1 as (r & _ & E1). destruct (e_run e =? 4); [|injection E1 as <-; auto]. apply bind_ok in E1 as (r' & _ & E1). injection E1 as <-. auto. }
    destruct H1 as (H1 & H2 & H3). assert (D' : match e_trgt e with None => True | Some t => tm_hash t = poll trgt (e_cur e) /\ tm_dirty trgt (e_cur e) t /\ (forall x, x <> StartNewMatch -> x = StartNewMatch -> e_cur e = 0 /\ tm_pos t = 0) end).
    { destruct (e_trgt e) as [t|]; [|exact I]. destruct D as (D1 & D2 & _). split; [exact D1|]. split; [exact D2|]. intros x X Y. contradiction. }
    assert (Fd : forall ops len, no_trgt ops -> dinv trgt mx (found e1 ops len)).
    { intros ops len No. split; [exact No|right]. cbn [found e_trgt e_cur e_st]. rewrite H1, H3. destruct (e_trgt e) as [t|]; [|exact I]. destruct D' as (A & B & C). split; [exact A|]. split; [exact B|]. apply C. discriminate. }
    apply bind_ok in E as (o & Eo & E). destruct o as [e2|].
    + injection E as <-. unfold take_run in Eo. destruct ((e_run e =? 4) && (e_run e1 >=? e_min e1)); [|discriminate Eo]. apply bind_ok in Eo as (w & _ & Eo). apply bind_ok in Eo as (u & _ & Eo). injection Eo as <-. apply Fd. apply no_trgt_cons. rewrite H2. auto.
    + apply bind_ok in E as (o & Es & E). destruct o as [e2|].
      * injection E as <-. unfold try_src in Es. destruct (e_src e1) as [s|]; [|discriminate Es]. cbv zeta in Es. destruct (e_cur e1 + 9 <=? mx); [|discriminate Es]. apply bind_ok in Es as (u & _ & Es). apply bind_ok in Es as (r & _ & Es).
        destruct r as [[[sp pre] post]|]; [|discriminate Es]. destruct (post >=? e_min e1); [|discriminate Es]. apply bind_ok in Es as (st & _ & Es). apply bind_ok in Es as (ops & Ec & Es). apply bind_ok in Es as (ss & _ & Es).
        apply bind_ok in Es as (u1 & _ & Es). apply bind_ok in Es as (u2 & _ & Es). injection Es as <-. apply Fd. apply no_trgt_cons. split; [reflexivity|]. rewrite H2 in Ec.
        destruct (pre >? 0); [exact (clear_no_trgt _ _ _ Ec N)|injection Ec as <-; exact N].
      * apply bind_ok in E as (o & Et & E). assert (o = None).
        { unfold try_trgt in Et. rewrite H1, H3 in Et. destruct (e_trgt e) as [t|]; [|injection Et as <-; reflexivity]. cbv zeta in Et. destruct (e_cur e + 4 <=? mx); [|injection Et as <-; reflexivity]. apply bind_ok in Et as (u & _ & Et). apply bind_ok in Et as (r & Er & Et).
          destruct D as (D1 & D2 & _). destruct I8 as (R1 & R2 & R3). rewrite <- R3 in D1, D2. rewrite (find_dirty trgt m t (e_min e1) r F) in Et; [injection Et as <-; reflexivity|lia|exact D2|exact D1|exact Er]. }
        subst o. injection E as <-. split; cbn [e_ops e_cur e_trgt e_st]; [rewrite H2; exact N|right]. rewrite H1, H3. destruct (e_trgt e) as [t|]; [|exact I]. destruct D' as (A & B & C). split; [exact A|]. split; [exact B|]. apply C. discriminate.
  - unfold found_match. intro E. apply bind_ok in E as (l & El & E). apply usub1 in El; [|lia]. subst l. destruct I9 as (J1 & J2 & _).
    assert (Hlen : len < lazy).
    { destruct (e_ops e) as [|c ops] eqn:Eops; cbn [last_end] in J1; [lia|]. destruct I4 as [S _]. apply Forall_cons_iff in S as [S _]. apply (proj1 (no_trgt_cons _ _)) in N as [Nc _]. pose proof (NL c S Nc) as X. cbn [head_pos_le] in I5. lia. }
    destruct ((lazy >? 0) && (len <? lazy) && (e_cur e + len <? mx - 1)) eqn:Ec; injection E as <-; split; cbn [e_ops]; try exact N.
    + right. cbn [e_trgt e_cur e_st]. destruct (e_trgt e) as [t|]; [|exact I]. destruct D as (A & B & _). split; [exact A|]. split; [exact B|discriminate].
    + left. cbn [e_cur]. lia.
  - unfold move_forward. intro E. apply bind_ok in E as (c & _ & E). apply bind_ok in E as (tm & Et & E). apply bind_ok in E as (sm & _ & E). injection E as <-. split; [exact N|right]. cbn [e_trgt e_cur e_st].
    destruct (e_trgt e) as [t|]; cbn [opt_map] in Et; [|injection Et as <-; exact I]. apply bind_ok in Et as (t1 & Ef & Et). injection Et as <-. destruct D as (A & B & _). destruct I8 as (R1 & R2 & R3).
    destruct (forward_dirty trgt t (e_cur e) t1) as [X Y]; try assumption; try lia. split; [exact X|]. split; [exact Y|discriminate].
Qed.
Lemma eloop_dinv m src trgt lazy mx : Forall is_byte trgt -> zlen trgt < 2 ^ 64 -> zlen src < 2 ^ 64 -> far_apart trgt -> no_long_cand src trgt lazy -> 0 < lazy -> mx <= zlen trgt ->
  forall fuel e e', einv src trgt mx e -> dinv trgt mx e -> eloop fuel m src trgt lazy mx e = Ok e' -> no_trgt (e_ops e').
Proof.
  intros Hb Hlt Hls F NL HL Hmx. induction fuel as [|k IH]; intros e e' V D; cbn [eloop]; destruct (e_cur e + 4 >=? mx) eqn:Ec; try (intro E; injection E as <-; exact (proj1 D)); try discriminate. intro E. apply bind_ok in E as (e1 & E1 & E).
  apply (IH e1 e'); [|exact (estep_dinv m src trgt lazy mx e e1 Hlt F NL HL Hmx ltac:(lia) V D E1)|exact E]. apply (estep_inv m src trgt lazy mx e e1 Hb Hlt Hls Hmx ltac:(lia) V E1).
Qed.
(** ** How long the candidates are *)
Definition long_enough (c : cand) : Prop := match c with MSrc _ n _ => 9 <= n | MRun _ n _ => 4 <= n | MTrgt _ _ _ => True end.
Lemma clear_long : forall ops s ops', clear_ops ops s = Ok ops' -> Forall long_enough ops -> Forall long_enough ops'.
Proof.
  induction ops as [|c ops IH]; intros s ops' H N; cbn [clear_ops] in H.
  - destruct (0 >=? s); [discriminate|injection H as <-; exact N].
  - destruct (c_pos c >=? s); [|injection H as <-; exact N]. apply Forall_cons_iff in N as [_ N]. exact (IH _ _ H N).
Qed.
Lemma estep_long m src trgt lazy mx e e' : zlen src < 2 ^ 64 -> zlen trgt < 2 ^ 64 -> 4 <= e_min e -> Forall long_enough (e_ops e) -> estep m src trgt lazy mx e = Ok e' -> Forall long_enough (e_ops e').
Proof.
  intros Hls Hlt Hm N. unfold estep. destruct (e_st e) as [| |len|].
  - unfold start_new_match. intro E. apply bind_ok in E as ([r b] & _ & E). apply bind_ok in E as (sm & _ & E). apply bind_ok in E as (tm & Es & E). injection E as <-. exact N.
  - unfold try_match. intro E. apply bind_ok in E as (e1 & E1 & E).
    assert (H1 : e_min e1 = e_min e /\ e_ops e1 = e_ops e).
    { unfold try_run in E1. apply bind_ok in E1 as (r & _ & E1). destruct (e_run e =? 4); [|injection E1 as <-; auto]. apply bind_ok in E1 as (r' & _ & E1). injection E1 as <-. auto. }
    destruct H1 as [H1 H2]. rewrite <- H2 in N. apply bind_ok in E as (o & Eo & E). destruct o as [e2|].
    + injection E as <-. unfold take_run in Eo. destruct ((e_run e =? 4) && (e_run e1 >=? e_min e1)) eqn:Er; [|discriminate Eo]. apply bind_ok in Eo as (w & _ & Eo). apply bind_ok in Eo as (u & _ & Eo). injection Eo as <-.
      cbn [found e_ops]. constructor; [cbn [long_enough]; lia|exact N].
    + apply bind_ok in E as (o & Es & E). destruct o as [e2|].
      * injection E as <-. unfold try_src in Es. destruct (e_src e1) as [s|]; [|discriminate Es]. cbv zeta in Es. destruct (e_cur e1 + 9 <=? mx); [|discriminate Es]. apply bind_ok in Es as (u & _ & Es). apply bind_ok in Es as (r & Er & Es).
        destruct r as [[[sp pre] post]|]; [|discriminate Es]. destruct (post >=? e_min e1); [|discriminate Es]. apply bind_ok in Es as (st & _ & Es). apply bind_ok in Es as (ops & Ec & Es). apply bind_ok in Es as (ss & _ & Es).
        apply bind_ok in Es as (u1 & _ & Es). apply bind_ok in Es as (u2 & _ & Es). injection Es as <-. cbn [found e_ops].
        unfold find_best_src_match in Er. apply bind_ok in Er as ([p|] & _ & Er); [|discriminate]. cbv zeta in Er. apply bind_ok in Er as ([[pr po]|] & Ex & Er); [|discriminate]. injection Er as <- <- <-. apply extend_src_sound in Ex as (_ & _ & X1 & X2 & _); [|exact Hls|exact Hlt].
        constructor; [cbn [long_enough]; lia|]. destruct (pr >? 0); [exact (clear_long _ _ _ Ec N)|injection Ec as <-; exact N].
      * apply bind_ok in E as (o & Et & E). destruct o as [e2|]; injection E as <-; [|exact N]. unfold try_trgt in Et. destruct (e_trgt e1); [|discriminate Et]. cbv zeta in Et. destruct (e_cur e1 + 4 <=? mx); [|discriminate Et]. apply bind_ok in Et as (u & _ & Et). apply bind_ok in Et as (r & _ & Et).
        destruct r as [[s n]|]; [|discriminate Et]. destruct (n >=? e_min e1); [|discriminate Et]. apply bind_ok in Et as (u1 & _ & Et). apply bind_ok in Et as (u2 & _ & Et). injection Et as <-. cbn [found e_ops]. constructor; [exact I|exact N].
  - unfold found_match. intro E. apply bind_ok in E as (l & _ & E). destruct ((lazy >? 0) && (len <? lazy) && (e_cur e + len <? l)); injection E as <-; exact N.
  - unfold move_forward. intro E. apply bind_ok in E as (c & _ & E). apply bind_ok in E as (tm & Et & E). apply bind_ok in E as (sm & _ & E). injection E as <-. exact N.
Qed.
Lemma eloop_long m src trgt lazy mx : Forall is_byte trgt -> zlen trgt < 2 ^ 64 -> zlen src < 2 ^ 64 -> mx <= zlen trgt -> forall fuel e e', einv src trgt mx e -> Forall long_enough (e_ops e) ->
  eloop fuel m src trgt lazy mx e = Ok e' -> Forall long_enough (e_ops e').
Proof.
  intros Hb Hlt Hls Hmx. induction fuel as [|k IH]; intros e e' V D; cbn [eloop]; destruct (e_cur e + 4 >=? mx) eqn:Ec; try (intro E; injection E as <-; exact D); try discriminate. intro E. apply bind_ok in E as (e1 & E1 & E).
  apply (IH e1 e'); [apply (estep_inv m src trgt lazy mx e e1 Hb Hlt Hls Hmx ltac:(lia) V E1)|exact (estep_long m src trgt lazy mx e e1 Hls Hlt (iv_min _ _ _ _ V) D E1)|exact E].
Qed.
Lemma encode_inner_misses m c src trgt cs : Forall is_byte trgt -> zlen trgt < 2 ^ 64 -> zlen src < 2 ^ 64 -> ic_naive c = None -> far_apart trgt ->
  0 < match ic_lazy c with Some n => n | None => 90 end -> no_long_cand src trgt (match ic_lazy c with Some n => n | None => 90 end) ->
  encode_inner m c src trgt = Ok cs -> no_trgt cs /\ Forall long_enough cs.
Proof.
  intros Hb Hlt Hls Hn F HL NL H. unfold encode_inner in H. rewrite Hn, naive_none in H.
  assert (G : forall tm sm e, match ic_trgt c with None => Ok None | Some tc => do t <- trgt_build m tc trgt 0; Ok (Some t) end = Ok tm ->
    match ic_src c with None => Ok None | Some sc => do s <- src_build m sc src 0 trgt; Ok (Some s) end = Ok sm ->
    eloop (4 * length trgt + 4) m src trgt (match ic_lazy c with Some n => n | None => 90 end) (zlen trgt) (mkE [] 0 4 0 0 StartNewMatch sm tm) = Ok e -> no_trgt (e_ops e) /\ Forall long_enough (e_ops e)).
  { intros tm sm e Etm Esm Ee. assert (V : einv src trgt (zlen trgt) (mkE [] 0 4 0 0 StartNewMatch sm tm)).
    { constructor; cbn [e_cur e_min e_byte e_ops e_st e_src e_trgt is_start head_pos_le]; auto; try lia.
      + pose proof (zlen_nonneg trgt). lia.
      + unfold is_byte. lia.
      + split; [constructor|exact I].
      + destruct (ic_src c) as [sc|]; [|injection Esm as <-; exact I]. apply bind_ok in Esm as (s & Es & Esm). injection Esm as <-. exact (src_build_rel _ _ _ _ _ _ (Z.le_refl 0) Es).
      + destruct (ic_trgt c) as [tc|]; [|injection Etm as <-; exact I]. apply bind_ok in Etm as (t & Et & Etm). injection Etm as <-. exact (trgt_build_rel _ _ _ _ _ (Z.le_refl 0) Et). }
    split; [|exact (eloop_long m src trgt _ (zlen trgt) Hb Hlt Hls (Z.le_refl _) _ _ e V (Forall_nil _) Ee)].
    refine (eloop_dinv m src trgt _ (zlen trgt) Hb Hlt Hls F NL HL (Z.le_refl _) _ _ e V _ Ee). split; [reflexivity|right]. cbn [e_trgt e_cur e_st]. destruct (ic_trgt c) as [tc|]; [|injection Etm as <-; exact I]. apply bind_ok in Etm as (t & Et & Etm). injection Etm as <-.
      destruct (build_dirty _ _ _ _ Et) as (A & B & C). rewrite poll_0. auto. }
  assert (H' : @Ok (list cand) [] = Ok cs \/ exists tm sm e, match ic_trgt c with None => Ok None | Some tc => do t <- trgt_build m tc trgt 0; Ok (Some t) end = Ok tm /\
    match ic_src c with None => Ok None | Some sc => do s <- src_build m sc src 0 trgt; Ok (Some s) end = Ok sm /\
    eloop (4 * length trgt + 4) m src trgt (match ic_lazy c with Some n => n | None => 90 end) (zlen trgt) (mkE [] 0 4 0 0 StartNewMatch sm tm) = Ok e /\ cs = rev (e_ops e)).
  { destruct (ic_src c) as [sc|], (ic_trgt c) as [tc|]; [..|left; exact H];
      (destruct ((zlen src =? 0) && _); [left; exact H|]; destruct (zlen trgt =? 0); [left; exact H|]; right;
       apply bind_ok in H as (tm & Etm & H); apply bind_ok in H as (sm & Esm & H); cbv zeta in H; apply bind_ok in H as (e & Ee & H); apply bind_ok in H as (u & _ & H); rewrite Z.ltb_irrefl in H; injection H as <-; exists tm, sm, e; auto). }
  destruct H' as [H'|(tm & sm & e & Etm & Esm & Ee & ->)]; [injection H' as <-; split; [reflexivity|constructor]|]. destruct (G _ _ _ Etm Esm Ee) as [G1 G2]. split; [apply no_trgt_rev; exact G1|apply Forall_rev; exact G2].
Qed.

(** ** The statements *)
(** The length from which a match makes the encoder jump: lazy_escape_len, or 90 if it is not set. *)
Definition jump_len (c : config) : Z := match cf_lazy c with Some n => n | None => 90 end.
(** No byte occurs n times in a row. *)
Definition no_run (n : Z) (l : list Z) : Prop := forall b pos, 0 <= pos -> pos + n <= zlen l -> sub l pos n <> rep b n.
(** No n bytes in a row occur in both. *)
Definition nothing_common (n : Z) (x y : list Z) : Prop := forall p q, 0 <= p -> p + n <= zlen x -> 0 <= q -> q + n <= zlen y -> sub x p n <> sub y q n.
(** The checksum of the first four bytes times a distance within the target is never a multiple of 2^30; for instance: their sum is odd and the target at most 2^30 bytes. *)
Definition start_differs (trgt : list Z) : Prop := exists a b c d rest, trgt = a :: b :: c :: d :: rest /\
  forall k, 0 < k < zlen trgt -> ((1143961941 * a + 1940812585 * b + 3141592653 * c + d) * k) mod 2 ^ 30 <> 0.
Lemma odd_start a b c d rest : Z.odd (a + b + c + d) = true -> zlen (a :: b :: c :: d :: rest) <= 2 ^ 30 -> start_differs (a :: b :: c :: d :: rest).
Proof.
  intros Ho Hl. exists a, b, c, d, rest. split; [reflexivity|]. intros k Hk E. apply Z.mod_divide in E; [|lia]. rewrite Z.mul_comm in E. apply (cancel_odd 30) in E; [|lia|].
  - apply Z.divide_pos_le in E; [lia|lia].
  - rewrite !Z.odd_add, !Z.odd_mul in *. change (Z.odd 1143961941) with true. change (Z.odd 1940812585) with true. change (Z.odd 3141592653) with true. exact Ho.
Qed.
Lemma start_far trgt : start_differs trgt -> far_apart trgt.
Proof.
  intros (a & b & c & d & rest & -> & H) k Hk D. apply (H k Hk). unfold csum in D. change (sub (a :: b :: c :: d :: rest) 0 4) with [a; b; c; d] in D. rewrite small_explicit in D. rewrite Z.mul_1_l in D. set (S := 1143961941 * a + 1940812585 * b + 3141592653 * c + d) in *.
  apply Z.mod_divide; [lia|]. rewrite (Z.div_mod S 4294967296) by lia. rewrite Z.mul_add_distr_r. apply Z.divide_add_r; [|exact D]. exists (4 * (S / 4294967296) * k). change 4294967296 with (4 * 2 ^ 30) at 1. ring.
Qed.
Lemma no_long src trgt L : 0 < L -> no_run L trgt -> nothing_common L src trgt -> no_long_cand src trgt L.
Proof.
  intros HL R C c (S1 & S2 & S3 & S4) Hc. unfold c_end in S3. destruct (Z.lt_ge_cases (c_len c) L) as [|X]; [assumption|exfalso]. destruct c as [s n p|s n p|b n p]; cbn [c_pos c_len c_trgt] in *; [|discriminate Hc|].
  - destruct S4 as (A & B & E). apply (C s p); [lia|lia|lia|lia|]. pose proof (f_equal (take L) E) as E'. unfold sub in E' |- *. rewrite !take_take in E'. rewrite Z.min_l in E' by lia. symmetry. exact E'.
  - destruct S4 as (A & E). apply (R b p); [lia|lia|]. pose proof (f_equal (fun x => sub x 0 L) E) as E'. cbv beta in E'. rewrite sub_sub, sub_rep, Z.add_0_r in E' by lia. exact E'.
Qed.

(** C88. Without a match of at least lazy_escape_len (90) bytes no repeated block is found: whatever the target matcher's settings, every output copy of the patch only repeats one byte. *)
Theorem C88_no_repeat_is_found : forall m m' cd c dict trgt patch, comp_lossless cd (cf_comp c) trgt -> Forall is_byte trgt -> zlen trgt < 2 ^ 63 -> zlen (source_of dict) < 2 ^ 63 ->
  cf_naive c = None -> 0 < jump_len c -> start_differs trgt -> no_run (jump_len c) trgt -> cf_src c = None \/ nothing_common (jump_len c) (source_of dict) trgt ->
  encode m cd c dict trgt = (patch, Ok tt) ->
  exists secs, patch_read (next_section m' cd) patch secs [] /\
    forall pre a n post, concat (map fst secs) = pre ++ Copy Output a n :: post -> exists b, sub trgt (ops_len pre) n = rep b n.
Proof.
  intros m m' cd c dict trgt patch Hcd Hb Ht Hs Hn HL Hst Hr Hc H.
  assert (G : forall dict, zlen (source_of dict) < 2 ^ 63 -> nothing_common (jump_len c) (source_of dict) trgt -> encode m cd c dict trgt = (patch, Ok tt) -> exists secs, patch_read (next_section m' cd) patch secs [] /\
    forall pre a n post, concat (map fst secs) = pre ++ Copy Output a n :: post -> exists b, sub trgt (ops_len pre) n = rep b n).
  { clear dict Hs Hc H. intros dict Hs Hc H. destruct (encode_good m m' cd c dict trgt patch Hcd Hb Ht Hs H) as (cs & ops & Ei & Et & _ & _ & Hcat & _ & _ & Hsg).
    destruct (secs_good_read _ _ _ Hsg []) as (outs & Hr' & Hall). rewrite app_nil_r in Hr'. exists outs. split; [exact Hr'|].
    rewrite (Forall2_fst _ _ _ (fun _ _ X => proj1 X) Hall), sec_with_ops, Hcat. fold (source_of dict) in Ei. set (src := source_of dict) in *.
    destruct (encode_inner_sound m (inner_of c) src trgt cs Hb ltac:(lia) ltac:(lia) Ei) as [Hcs Ho].
    destruct (encode_inner_misses m (inner_of c) src trgt cs Hb ltac:(lia) ltac:(lia) Hn (start_far _ Hst) HL (no_long _ _ _ HL Hr Hc) Ei) as [N _].
    pose proof (translate_runs m src trgt cs ops Hb ltac:(lia) ltac:(lia) Hcs Ho N Et) as R. intros pre a n post E. rewrite E in R. destruct (out_runs_spec _ _ _ _ _ _ R) as (b & Eb). exists b. exact Eb. }
  destruct Hc as [Hc|Hc]; [|exact (G dict Hs Hc H)]. rewrite (C87_no_source_matching m cd c dict trgt Hc Hn Hb Ht) in H. apply (G None); [cbn; lia| |exact H].
  intros p q Hp Hp2. cbn in Hp2. change (zlen (@nil Z)) with 0 in Hp2. lia.
Qed.
(** C88. If moreover no byte occurs four times in a row (and no nine bytes come from the dictionary), all matching is in vain: the patch is the one without any matching. *)
Theorem C88_nothing_is_found : forall m cd c dict trgt patch, Forall is_byte trgt -> zlen trgt < 2 ^ 63 -> zlen (source_of dict) < 2 ^ 63 ->
  cf_naive c = None -> 9 <= jump_len c -> start_differs trgt -> no_run 4 trgt -> cf_src c = None \/ nothing_common 9 (source_of dict) trgt ->
  encode m cd c dict trgt = (patch, Ok tt) ->
  encode m cd (mkConfig None None (cf_comp c) (cf_format c) (cf_segment c) (cf_naive c) (cf_lazy c)) None trgt = (patch, Ok tt).
Proof.
  intros m cd c dict trgt patch Hb Ht Hs Hn HL Hst Hr Hc H.
  assert (G : forall dict, zlen (source_of dict) < 2 ^ 63 -> nothing_common 9 (source_of dict) trgt -> encode m cd c dict trgt = (patch, Ok tt) ->
    encode m cd (mkConfig None None (cf_comp c) (cf_format c) (cf_segment c) (cf_naive c) (cf_lazy c)) None trgt = (patch, Ok tt)).
  { clear dict Hs Hc H. intros dict Hs Hc H. rewrite <- (C87_no_source_matching m cd (mkConfig None None (cf_comp c) (cf_format c) (cf_segment c) (cf_naive c) (cf_lazy c)) dict trgt eq_refl Hn Hb Ht).
    assert (X : forall x, cand_sound (source_of dict) trgt x -> c_trgt x = false -> long_enough x -> False).
    { intros x Sx Nx Lx. destruct x as [s n p|s n p|b n p]; cbn [long_enough c_trgt] in *; [|discriminate Nx|].
      - pose proof (fun r => no_long (source_of dict) trgt 9 ltac:(lia) r Hc (MSrc s n p) Sx eq_refl) as Y. cbn [c_len] in Y. enough (n < 9) by lia. apply Y.
        intros b' pos Hp Hl E. apply (Hr b' pos); [lia|lia|]. pose proof (f_equal (fun x => sub x 0 4) E) as E'. cbv beta in E'. rewrite sub_sub, sub_rep, Z.add_0_r in E' by lia. exact E'.
      - destruct Sx as (S1 & S2 & S3 & A & E). unfold c_end in S3. cbn [c_pos c_len] in *. apply (Hr b p); [lia|lia|]. pose proof (f_equal (fun x => sub x 0 4) E) as E'. cbv beta in E'. rewrite sub_sub, sub_rep, Z.add_0_r in E' by lia. exact E'. }
    assert (NL : no_long_cand (source_of dict) trgt (jump_len c)).
    { intros x Sx Nx. destruct (Z.lt_ge_cases (c_len x) (jump_len c)) as [|Y]; [assumption|exfalso]. apply (X x Sx Nx). destruct x; cbn [c_len c_trgt long_enough] in *; [lia|discriminate|lia]. }
    unfold encode, encode_with in *. cbv zeta in *. fold (source_of dict) in *. change (encode_inner m (inner_of (mkConfig None None (cf_comp c) (cf_format c) (cf_segment c) (cf_naive c) (cf_lazy c))) (source_of dict) trgt) with (@Ok (list cand) []).
    destruct (encode_inner m (inner_of c) (source_of dict) trgt) as [cs|x| |] eqn:Ei; try (unfold wbind, wlift in H; cbn [fst snd] in H; discriminate H).
    destruct (encode_inner_sound m (inner_of c) (source_of dict) trgt cs Hb ltac:(lia) ltac:(lia) Ei) as [Hcs Ho].
    destruct (encode_inner_misses m (inner_of c) (source_of dict) trgt cs Hb ltac:(lia) ltac:(lia) Hn (start_far _ Hst) ltac:(change (0 < jump_len c); lia) NL Ei) as [N LE].
    destruct cs as [|x cs]; [exact H|exfalso]. apply Forall_cons_iff in Hcs as [Sx _]. apply Forall_cons_iff in LE as [Lx _]. apply (proj1 (no_trgt_cons _ _)) in N as [Nx _]. exact (X x Sx Nx Lx). }
  destruct Hc as [Hc|Hc]; [|exact (G dict Hs Hc H)]. rewrite (C87_no_source_matching m cd c dict trgt Hc Hn Hb Ht) in H. apply (G None); [cbn; lia| |exact H].
  intros p q Hp Hp2. cbn in Hp2. change (zlen (@nil Z)) with 0 in Hp2. lia.
Qed.

(** ** Repeated blocks *)
Definition copies (n : nat) (w : list Z) : list Z := concat (repeat w n).
Lemma copies_window w : 4 <= zlen w -> forall n pos, 0 <= pos -> pos + 4 <= zlen (copies n w) -> exists r, 0 <= r /\ r + 4 <= zlen (w ++ w) /\ sub (copies n w) pos 4 = sub (w ++ w) r 4.
Proof.
  intros Hw. induction n as [|n IH]; intros pos Hp Hl; unfold copies in *; cbn [repeat concat] in *; [change (zlen (@nil Z)) with 0 in Hl; lia|]. rewrite zlen_app in Hl. destruct (Z.lt_ge_cases pos (zlen w)) as [Hlt|Hge].
  - exists pos. rewrite zlen_app. split; [lia|]. split; [lia|]. destruct n as [|n]; cbn [repeat concat] in *.
    + rewrite app_nil_r. change (zlen (@nil Z)) with 0 in Hl. unfold sub. rewrite !drop_app_l by lia. rewrite take_app_l; [reflexivity|]. rewrite zlen_drop by lia. lia.
    + rewrite app_assoc. unfold sub. rewrite (drop_app_l pos (w ++ w)) by (rewrite zlen_app; lia). apply take_app_l. rewrite zlen_drop by (rewrite zlen_app; lia). rewrite zlen_app. lia.
  - destruct (IH (pos - zlen w)) as (r & R1 & R2 & R3); [lia|lia|]. exists r. split; [exact R1|]. split; [exact R2|]. rewrite <- R3. unfold sub. rewrite drop_app_r by lia. reflexivity.
Qed.
Lemma copies_no_run w n : 4 <= zlen w -> no_run 4 (w ++ w) -> no_run 4 (copies n w).
Proof. intros Hw Hr b pos Hp Hl E. destruct (copies_window w Hw n pos Hp Hl) as (r & R1 & R2 & R3). rewrite R3 in E. exact (Hr b r R1 R2 E). Qed.
(** C88. However often a block is repeated, target matching without dictionary finds none of the repeats, whatever its settings: the patch carries the whole target as literals. *)
Theorem C88_repeated_blocks_refuted : forall m m' cd comp f seg osc tc n a b c d rest patch, comp_lossless cd comp (copies n (a :: b :: c :: d :: rest)) ->
  let w := a :: b :: c :: d :: rest in
  Forall is_byte w -> Z.odd (a + b + c + d) = true -> no_run 4 (w ++ w) -> zlen (copies n w) <= 2 ^ 30 ->
  encode m cd (mkConfig osc (Some tc) comp f seg None None) None (copies n w) = (patch, Ok tt) ->
  exists secs, patch_read (next_section m' cd) patch secs [] /\ Forall (fun o => match o with Add _ => True | _ => False end) (concat (map fst secs)).
Proof.
  intros m m' cd comp f seg osc tc n a b c d rest patch Hcd w Hb Ho Hr Hl H. assert (Hw : 4 <= zlen w) by (unfold w; rewrite !zlen_cons; pose proof (zlen_nonneg rest); lia).
  assert (Hbc : Forall is_byte (copies n w)) by (unfold copies; clear -Hb; induction n; cbn [repeat concat]; [constructor|apply Forall_app; auto]).
  assert (K : encode m cd (mkConfig None None comp f seg None None) None (copies n w) = (patch, Ok tt)).
  { destruct n as [|n].
    - unfold copies in *. cbn [repeat concat] in *. unfold encode, encode_with in *. cbv zeta in *. cbn [cf_comp cf_format cf_segment] in *. assert (E : encode_inner m (inner_of (mkConfig osc (Some tc) comp f seg None None)) [] [] = Ok []) by (unfold encode_inner; cbn [inner_of ic_src ic_trgt]; destruct osc; reflexivity).
      rewrite E in H. exact H.
    - apply (C88_nothing_is_found m cd (mkConfig osc (Some tc) comp f seg None None) None (copies (S n) w) patch); [exact Hbc|lia|cbn; lia|reflexivity|cbn; lia| |apply copies_no_run; assumption|right|exact H].
      + unfold copies in *. cbn [repeat concat] in *. unfold w in *. cbn [app] in *. apply odd_start; assumption.
      + intros p q Hp Hp2. cbn in Hp2. change (zlen (@nil Z)) with 0 in Hp2. lia. }
  destruct (C87_no_matching m m' cd (mkConfig None None comp f seg None None) None (copies n w) patch Hcd Hbc ltac:(lia) ltac:(cbn; lia) eq_refl eq_refl K) as (secs & R & E). exists secs. split; [exact R|]. rewrite E.
  assert (P : forall fuel l, Forall (fun o => match o with Add _ => True | _ => False end) (pieces fuel l)) by (induction fuel as [|k IH]; intros [|x l]; cbn [pieces]; constructor; [exact I|apply IH]).
  assert (Hz : zlen (copies n w) <> 1).
  { destruct n; unfold copies; cbn [repeat concat]; [cbn; lia|]. rewrite zlen_app. pose proof (zlen_nonneg (concat (repeat w n))). lia. }
  destruct (copies n w) as [|x [|y l]]; [apply P|exfalso; apply Hz; reflexivity|apply P].
Qed.
(** A sentence of 40 bytes, three times, at the highest level: 120 literals. With a dictionary, too, as long as no match has 90 bytes. *)
Definition c88_text : list Z := [84; 104; 101; 32; 109; 111; 114; 101; 32; 116; 104; 101; 32; 109; 101; 114; 114; 105; 101; 114; 44; 32; 116; 104; 101; 32; 109; 111; 114; 101; 32; 116; 104; 101; 32; 98; 101; 101; 115; 46].
Definition c88_cfg : config := mkConfig (Some (mkSC 2 None)) (Some (mkTC 70 33 None)) None Interleaved 16777215 None None.
Example C88_example : forall m, encode m no_codecs c88_cfg None (copies 3 c88_text) = ([0; 1; 120; 128; 120; 0] ++ copies 3 c88_text, Ok tt).
Proof. intros [|]; vm_compute; reflexivity. Qed.
Fixpoint no_run4b (l : list Z) : bool :=
  match l with
  | a :: r => negb (list_eqb (take 4 l) [a; a; a; a]) && no_run4b r
  | [] => true
  end.
Lemma no_run4b_ok : forall l, no_run4b l = true -> no_run 4 l.
Proof.
  induction l as [|x l IH]; intros H b pos Hp Hl E; [change (zlen (@nil Z)) with 0 in Hl; lia|]. cbn [no_run4b] in H. apply andb_prop in H as [H1 H2]. destruct (Z.eq_dec pos 0) as [->|N].
  - unfold sub in E. change (drop 0 (x :: l)) with (x :: l) in E. change (rep b 4) with [b; b; b; b] in E. assert (x = b) by (unfold take in E; change (Z.to_nat 4) with 4%nat in E; cbn [firstn] in E; injection E; auto). subst x. rewrite E in H1. change (list_eqb [b; b; b; b] [b; b; b; b]) with ((b =? b) && ((b =? b) && ((b =? b) && ((b =? b) && true)))) in H1. rewrite Z.eqb_refl in H1. discriminate H1.
  - rewrite zlen_cons in Hl. apply (IH H2 b (pos - 1)); [lia|lia|]. rewrite <- E. unfold sub. f_equal. unfold drop. replace (Z.to_nat pos) with (S (Z.to_nat (pos - 1))) by lia. reflexivity.
Qed.
Lemma no_run_mono n k l : 0 <= n <= k -> no_run n l -> no_run k l.
Proof. intros Hn H b pos Hp Hl E. apply (H b pos Hp); [lia|]. pose proof (f_equal (fun x => sub x 0 n) E) as E'. cbv beta in E'. rewrite sub_sub, sub_rep, Z.add_0_r in E' by lia. exact E'. Qed.
Example C88_hypotheses : start_differs (copies 3 c88_text) /\ no_run 4 (c88_text ++ c88_text) /\ no_run (jump_len c88_cfg) (copies 3 c88_text) /\ nothing_common (jump_len c88_cfg) (source_of (Some c88_text)) (copies 3 c88_text).
Proof.
  assert (R : no_run 4 (c88_text ++ c88_text)) by (apply no_run4b_ok; vm_compute; reflexivity). split; [apply odd_start; [reflexivity|vm_compute; discriminate]|]. split; [exact R|].
  split; [apply (no_run_mono 4); [cbn; lia|]; apply copies_no_run; [vm_compute; discriminate|exact R]|]. intros p q Hp Hl. change (zlen (source_of (Some c88_text))) with 40 in Hl. change (jump_len c88_cfg) with 90 in Hl. lia.
Qed.

Print Assumptions C88_no_repeat_is_found.
Print Assumptions C88_nothing_is_found.
Print Assumptions C88_repeated_blocks_refuted.
