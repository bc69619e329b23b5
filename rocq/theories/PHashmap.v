(** Proofs about the hash table (hashmap.rs). *)
From Verif Require Import Base Spec MHashmap PBase.
Ltac Zify.zify_post_hook ::= idtac.

Definition table_good (w : Z) (t : table) : Prop :=
  exists bits, 0 <= bits <= w /\ t_shift t = w - bits /\ t_size t = 2 ^ bits /\ t_mask t = 2 ^ bits - 1.

Lemma lxor_bound a b n : 0 <= n -> 0 <= a < 2 ^ n -> 0 <= b < 2 ^ n -> 0 <= Z.lxor a b < 2 ^ n.
Proof.
  intros Hn Ha Hb. assert (H0 : 0 <= Z.lxor a b) by (apply Z.lxor_nonneg; lia). split; [exact H0|].
  destruct (Z.eq_dec (Z.lxor a b) 0) as [->|Hne]; [apply Z.pow_pos_nonneg; lia|].
  apply Z.log2_lt_pow2; [lia|].
  assert (Hlog : forall x, 0 <= x < 2 ^ n -> Z.log2 x < n \/ x = 0).
  { intros x Hx. destruct (Z.eq_dec x 0); [auto|left]. apply Z.log2_lt_pow2; lia. }
  pose proof (Z.log2_lxor a b ltac:(lia) ltac:(lia)).
  destruct (Hlog a Ha) as [La| ->], (Hlog b Hb) as [Lb| ->]; try lia.
  - rewrite Z.lxor_0_r in *. lia.
  - rewrite Z.lxor_0_l in *. lia.
  - now rewrite Z.lxor_0_l in Hne.
Qed.

Lemma bucket_idx_bound w t h : table_good w t -> 0 <= h < 2 ^ w -> 0 <= bucket_idx t h < t_size t.
Proof.
  intros (bits & Hb & Hs & Hz & Hm) Hh. unfold bucket_idx. rewrite Hs, Hm, Hz. apply lxor_bound; [lia| |].
  - rewrite Z.shiftr_div_pow2 by lia. split; [apply Z.div_pos; [lia|apply Z.pow_pos_nonneg; lia]|].
    apply Z.div_lt_upper_bound; [apply Z.pow_pos_nonneg; lia|]. rewrite <- Z.pow_add_r by lia. now replace (w - bits + bits) with w by lia.
  - replace (2 ^ bits - 1) with (Z.ones bits) by (rewrite Z.ones_equiv; lia). rewrite Z.land_ones by lia. apply Z.mod_pos_bound, Z.pow_pos_nonneg; lia.
Qed.

Lemma next_pow2_ok m n : n <= 2 ^ 63 -> exists k, next_power_of_two m n = Ok (2 ^ k) /\ 0 <= k <= 63 /\ (1 < n -> k = Z.log2_up n) /\ (n <= 1 -> k = 0).
Proof.
  intro H. unfold next_power_of_two. destruct (n <=? 1) eqn:E.
  - exists 0. split; [reflexivity|]. lia.
  - replace (n >? 2 ^ 63) with false by lia. exists (Z.log2_up n). split; [reflexivity|].
    pose proof (Z.log2_up_nonneg n). pose proof (Z.log2_up_le_mono _ _ H) as G. rewrite Z.log2_up_pow2 in G by lia. lia.
Qed.

Definition table_width (is32 : bool) : Z := if is32 then 32 else 64.
Lemma table_new_ok m cap (is32 : bool) : 0 <= cap < 2 ^ (if is32 then 33 else 63) ->
  exists t, table_new m cap is32 = Ok t /\ table_good (table_width is32) t /\ t_buckets t = (fun _ => empty_bucket) /\ cap + 1 <= 2 * t_size t.
Proof.
  intro H. assert (Hc : cap + 1 <= 2 ^ 63) by (destruct is32; lia). unfold table_new, table_bits.
  destruct (next_pow2_ok m (cap + 1) Hc) as (k & E & Hk & Hk1 & Hk0). rewrite E. cbn [bind].
  assert (0 < 2 ^ k) by (apply Z.pow_pos_nonneg; lia). replace (2 ^ k =? 0) with false by lia. rewrite Z.log2_pow2 by lia.
  assert (Hkb : k <= 33 \/ is32 = false).
  { destruct is32; [left|now right]. destruct (Z.leb_spec (cap + 1) 1); [lia|]. rewrite Hk1 by lia.
    rewrite <- (Z.log2_up_pow2 33) by lia. apply Z.log2_up_le_mono. lia. }
  set (bits := Z.min (Z.max k 3) 64 - 1).
  assert (Hbits : 2 <= bits <= table_width is32 /\ k <= bits + 1) by (unfold bits, table_width; destruct is32; [destruct Hkb; [lia|discriminate]|lia]).
  rewrite (usub_ok m (if is32 then 32 else 64) bits) by (unfold table_width in *; destruct is32; lia). cbn [bind].
  eexists. split; [reflexivity|]. split; [|split; [reflexivity|]].
  - exists bits. cbn. unfold table_width in *. repeat split; lia.
  - cbn [t_size]. destruct (Z.leb_spec (cap + 1) 1).
    + assert (0 < 2 ^ bits) by (apply Z.pow_pos_nonneg; lia). lia.
    + pose proof (Z.log2_up_spec (cap + 1) ltac:(lia)) as [_ G]. rewrite <- Hk1 in G by lia.
      rewrite <- Z.pow_succ_r by lia. etransitivity; [exact G|]. apply Z.pow_le_mono_r; lia.
Qed.

(** ** Histories, latest insertion first *)
Definition at_bucket (t : table) (i : Z) (e : Z * Z) : bool := bucket_idx t (fst e) =? i.
Definition holds (t : table) (hist : list (Z * Z)) : Prop :=
  forall i, t_buckets t i = match find (at_bucket t i) hist with Some (h, p) => mkBucket h (p + 1) | None => empty_bucket end.

Lemma bucket_set_fst b h p : fst (bucket_set b h p) = mkBucket h (p + 1).
Proof. unfold bucket_set. destruct (b_value b =? 0); [reflexivity|]. destruct (b_hash b =? h); reflexivity. Qed.

Lemma table_insert_ok w t hist h p : table_good w t -> holds t hist -> 0 <= h < 2 ^ w ->
  exists t' r, table_insert t h p = Ok (t', r) /\ table_good w t' /\ holds t' ((h, p) :: hist) /\ (forall x, bucket_idx t' x = bucket_idx t x) /\
    r = snd (bucket_set (t_buckets t (bucket_idx t h)) h p).
Proof.
  intros Hg Hh Hr. pose proof (bucket_idx_bound w t h Hg Hr) as Hb. unfold table_insert.
  replace ((0 <=? bucket_idx t h) && (bucket_idx t h <? t_size t)) with true by lia.
  destruct (bucket_set (t_buckets t (bucket_idx t h)) h p) as [b r] eqn:Eb.
  pose proof (bucket_set_fst (t_buckets t (bucket_idx t h)) h p) as Hf. rewrite Eb in Hf. cbn [fst] in Hf. subst b.
  eexists; exists r. split; [reflexivity|]. split; [exact Hg|]. split; [|split; reflexivity].
  intro i. cbn [t_buckets find]. unfold upd, at_bucket at 1. cbn [fst]. unfold bucket_idx at 2. cbn [t_shift t_mask]. fold (bucket_idx t h).
  rewrite (Z.eqb_sym i). destruct (bucket_idx t h =? i) eqn:E; [reflexivity|]. exact (Hh i).
Qed.

Lemma table_get_ok w t hist h : table_good w t -> holds t hist -> (forall x, In x hist -> 0 <= snd x) -> 0 <= h < 2 ^ w ->
  table_get t h = Ok (match find (at_bucket t (bucket_idx t h)) hist with Some (h', p) => if h' =? h then Some p else None | None => None end).
Proof.
  intros Hg Hh Hpos Hr. pose proof (bucket_idx_bound w t h Hg Hr) as Hb. unfold table_get.
  replace ((0 <=? bucket_idx t h) && (bucket_idx t h <? t_size t)) with true by lia.
  rewrite Hh. destruct (find _ hist) as [[h' p]|] eqn:E; unfold bucket_get; cbn [b_value b_hash empty_bucket]; [|reflexivity].
  apply find_some in E as [Hin _]. specialize (Hpos _ Hin). cbn in Hpos. replace (p + 1 =? 0) with false by lia.
  destruct (h' =? h); [|reflexivity]. do 2 f_equal. lia.
Qed.

Lemma find_bucket_latest t h : forall hist h' p, find (at_bucket t (bucket_idx t h)) hist = Some (h', p) -> h' = h ->
  find (fun e => fst e =? h) hist = Some (h', p).
Proof.
  induction hist as [|[a b] hist IH]; intros h' p H E; cbn [find] in *; [discriminate|]. unfold at_bucket at 1 in H. cbn [fst] in *.
  destruct (bucket_idx t a =? bucket_idx t h) eqn:E1.
  - injection H as -> ->. subst h'. now rewrite Z.eqb_refl.
  - destruct (a =? h) eqn:E2; [|now apply IH]. apply Z.eqb_eq in E2. subst a. rewrite Z.eqb_refl in E1. discriminate.
Qed.
