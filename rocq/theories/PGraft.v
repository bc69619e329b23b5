(** Proofs about SpecGraft.v and that the merger computes it. *)
From Verif Require Import Base Spec MCommon MWriter MReader MDecoder MMerger SpecApi SpecMerge SpecGraft PBase PStream PSection PDecoder PPatch PEncode PMerge PMerge2 PMerge3 PMerge4.
Ltac Zify.zify_post_hook ::= idtac.
Arguments Z.add : simpl never.
Arguments Z.sub : simpl never.
Arguments Z.mul : simpl never.
Arguments Z.pow : simpl never.
Arguments Z.min : simpl never.

Definition nonempty (ops : list op) : Prop := Forall (fun o => 1 <= op_len o) ops.
Lemma nonempty_len ops : nonempty ops -> 0 <= ops_len ops.
Proof. induction 1 as [|o l H _ IH]; [cbn; lia|]. rewrite ops_len_cons. lia. Qed.
Lemma good_nonempty ops : Forall op_good ops -> nonempty ops.
Proof. apply Forall_impl. intros o Ho. apply Ho. Qed.

Lemma cut_len o i n : 0 <= i -> 0 <= n -> i + n <= op_len o -> op_len (cut_op o i n) = n.
Proof. intros. destruct o; cbn [cut_op op_len] in *; [now rewrite zlen_sub by lia|reflexivity|reflexivity]. Qed.
Lemma cut_cut o i n j k : 0 <= i -> 0 <= j -> 0 <= k -> j + k <= n -> i + n <= op_len o -> cut_op (cut_op o i n) j k = cut_op o (i + j) k.
Proof. intros. destruct o as [bs|b l|s a l]; cbn [cut_op op_len] in *; [now rewrite sub_sub by lia|reflexivity|f_equal; lia]. Qed.
Lemma cut_all o : cut_op o 0 (op_len o) = o.
Proof. destruct o as [bs|b l|s a l]; cbn [cut_op op_len]; [now rewrite sub_all by lia|reflexivity|f_equal; lia]. Qed.

Lemma slice_0 ops a n : n <= 0 -> slice ops a n = [].
Proof. intro H. destruct ops; [reflexivity|]. cbn [slice]. now replace (n <=? 0) with true by lia. Qed.
Lemma slice_nonempty : forall ops a n, nonempty ops -> 0 <= a -> nonempty (slice ops a n).
Proof.
  induction ops as [|o ops IH]; intros a n Hn Ha; [constructor|]. inversion Hn as [|? ? H1 H2]; subst. cbn [slice]. destruct (n <=? 0) eqn:E; [constructor|].
  destruct (op_len o <=? a) eqn:E2; [apply IH; auto; lia|]. constructor; [rewrite cut_len; lia|apply IH; auto; lia].
Qed.
Lemma slice_len : forall ops a n, nonempty ops -> 0 <= a -> 0 <= n -> a + n <= ops_len ops -> ops_len (slice ops a n) = n.
Proof.
  induction ops as [|o ops IH]; intros a n Hn Ha H0 Hl; [cbn in *; lia|]. inversion Hn as [|? ? H1 H2]; subst. pose proof (nonempty_len _ H2). rewrite ops_len_cons in Hl. cbn [slice]. destruct (n <=? 0) eqn:E; [cbn; lia|].
  destruct (op_len o <=? a) eqn:E2; [apply IH; auto; lia|]. rewrite ops_len_cons, cut_len by lia. rewrite IH by (auto; lia). lia.
Qed.
Lemma slice_app : forall a b s n, nonempty a -> 0 <= s -> 0 <= n ->
  slice (a ++ b) s n = slice a s (Z.min n (ops_len a - s)) ++ slice b (Z.max 0 (s - ops_len a)) (Z.min n (s + n - ops_len a)).
Proof.
  induction a as [|o a IH]; intros b s n Hn Hs H0.
  - cbn [app slice ops_len fold_right]. replace (Z.max 0 (s - 0)) with s by lia. now replace (Z.min n (s + n - 0)) with n by lia.
  - inversion Hn as [|? ? H1 H2]; subst. pose proof (nonempty_len _ H2). rewrite ops_len_cons. cbn [app slice]. destruct (n <=? 0) eqn:E.
    { replace (Z.min n (op_len o + ops_len a - s) <=? 0) with true by lia. rewrite slice_0 by lia. reflexivity. }
    destruct (op_len o <=? s) eqn:E2.
    + rewrite IH by (auto; lia). replace (Z.max 0 (s - op_len o - ops_len a)) with (Z.max 0 (s - (op_len o + ops_len a))) by lia.
      replace (Z.min n (s - op_len o + n - ops_len a)) with (Z.min n (s + n - (op_len o + ops_len a))) by lia.
      replace (ops_len a - (s - op_len o)) with (op_len o + ops_len a - s) by lia. f_equal. destruct (Z.min n (op_len o + ops_len a - s) <=? 0) eqn:E3; [apply slice_0; lia|reflexivity].
    + replace (Z.min n (op_len o + ops_len a - s) <=? 0) with false by lia. replace (Z.min (Z.min n (op_len o + ops_len a - s)) (op_len o - s)) with (Z.min n (op_len o - s)) by lia.
      cbn [app]. f_equal. rewrite IH by (auto; lia). f_equal; [f_equal; lia|]. destruct (n <=? op_len o - s) eqn:E3; [rewrite !slice_0 by lia; reflexivity|f_equal; lia].
Qed.
Lemma slice_whole ops : nonempty ops -> slice ops 0 (ops_len ops) = ops.
Proof.
  induction 1 as [|o ops H Hn IH]; [reflexivity|]. pose proof (nonempty_len _ Hn). rewrite ops_len_cons. cbn [slice]. replace (op_len o + ops_len ops <=? 0) with false by lia. replace (op_len o <=? 0) with false by lia.
  replace (Z.min (op_len o + ops_len ops) (op_len o - 0)) with (op_len o) by lia. rewrite cut_all. replace (op_len o + ops_len ops - op_len o) with (ops_len ops) by lia. now rewrite IH.
Qed.
(** A part of a part. *)
Lemma slice_slice : forall ops a n i k, nonempty ops -> 0 <= a -> 0 <= i -> 0 <= k -> i + k <= n -> a + n <= ops_len ops -> slice (slice ops a n) i k = slice ops (a + i) k.
Proof.
  induction ops as [|o ops IH]; intros a n i k Hn Ha Hi Hk Hik Hl; [reflexivity|]. inversion Hn as [|? ? H1 H2]; subst. pose proof (nonempty_len _ H2). rewrite ops_len_cons in Hl.
  destruct (k <=? 0) eqn:Ek; [rewrite !slice_0 by lia; reflexivity|]. cbn [slice]. replace (n <=? 0) with false by lia. rewrite Ek. destruct (op_len o <=? a) eqn:E2.
  - replace (op_len o <=? a + i) with true by lia. rewrite IH by (auto; lia). f_equal; lia.
  - set (j := Z.min n (op_len o - a)). assert (Hj : 1 <= j <= op_len o - a /\ j <= n) by lia. cbn [slice]. rewrite Ek. rewrite cut_len by lia. destruct (j <=? i) eqn:E3.
    + assert (j = op_len o - a) by lia. replace (op_len o <=? a + i) with true by lia. rewrite IH by (auto; lia). f_equal; lia.
    + replace (op_len o <=? a + i) with false by lia. assert (Em : Z.min k (j - i) = Z.min k (op_len o - (a + i))) by lia. rewrite cut_cut by lia. rewrite Em. f_equal.
      rewrite IH by (auto; lia). f_equal; lia.
Qed.
(** All copies from the dictionary lie inside [n] bytes. *)
Definition fits (n : Z) (ops : list op) : Prop := forall a k, In (Copy Dict a k) ops -> 0 <= a /\ a + k <= n.
Lemma fits_cons n o ops : fits n (o :: ops) -> fits n [o] /\ fits n ops.
Proof. intro H. split; intros a k Hin; apply H; [destruct Hin as [->|[]]; now left|now right]. Qed.
Lemma graft_cons o ops older : graft (o :: ops) older = graft [o] older ++ graft ops older.
Proof. unfold graft. cbn [flat_map]. now rewrite app_nil_r. Qed.
Lemma graft_app a b older : graft (a ++ b) older = graft a older ++ graft b older. Proof. apply flat_map_app. Qed.
Lemma graft_one o older : nonempty older -> 1 <= op_len o -> fits (ops_len older) [o] -> ops_len (graft [o] older) = op_len o /\ nonempty (graft [o] older).
Proof.
  intros Hn Ho Hf. unfold graft. cbn [flat_map]. rewrite app_nil_r. destruct o as [bs|b n|[] a n]; try (split; [cbn; lia|constructor; [exact Ho|constructor]]).
  cbn [op_len] in *. destruct (Hf a n (or_introl eq_refl)). split; [apply slice_len; auto; lia|apply slice_nonempty; auto].
Qed.
Lemma graft_spec ops older : nonempty older -> nonempty ops -> fits (ops_len older) ops -> ops_len (graft ops older) = ops_len ops /\ nonempty (graft ops older).
Proof.
  intros Hn Ho. induction Ho as [|o ops H1 H2 IH]; intro Hf; [split; [reflexivity|constructor]|]. apply fits_cons in Hf as [Hf1 Hf2]. destruct (graft_one o older Hn H1 Hf1) as [L1 N1]. destruct (IH Hf2) as [L2 N2].
  rewrite graft_cons, ops_len_app, ops_len_cons. split; [lia|]. apply Forall_app. auto.
Qed.
Lemma slice_one o i n : 1 <= n -> 0 <= i < op_len o -> slice [o] i n = [cut_op o i (Z.min n (op_len o - i))].
Proof. intros H1 H2. cbn [slice]. replace (n <=? 0) with false by lia. now replace (op_len o <=? i) with false by lia. Qed.
Lemma cut_graft o older i n : nonempty older -> 1 <= op_len o -> fits (ops_len older) [o] -> 0 <= i -> 1 <= n -> i + n <= op_len o -> graft [cut_op o i n] older = slice (graft [o] older) i n.
Proof.
  intros Hn Ho Hf Hi H1 Hin. unfold graft. cbn [flat_map]. rewrite !app_nil_r.
  destruct o as [bs|b l|[] a l]; cbn [cut_op op_len] in *;
    try (rewrite slice_one by (cbn [op_len]; lia); cbn [op_len]; match goal with |- context [Z.min n ?x] => replace (Z.min n x) with n by lia end; reflexivity).
  destruct (Hf a l (or_introl eq_refl)). symmetry. apply slice_slice; auto; lia.
Qed.
(** Cutting out of grafted operations is grafting what is cut out. *)
Lemma slice_graft older : nonempty older -> forall ops a n, nonempty ops -> fits (ops_len older) ops -> 0 <= a -> 0 <= n -> a + n <= ops_len ops -> slice (graft ops older) a n = graft (slice ops a n) older.
Proof.
  intro Hn. induction ops as [|o ops IH]; intros a n Ho Hf Ha H0 Hl; [reflexivity|]. inversion Ho as [|? ? H1 H2]; subst. apply fits_cons in Hf as [Hf1 Hf2]. rewrite ops_len_cons in Hl.
  destruct (graft_one o older Hn H1 Hf1) as [L1 N1]. rewrite graft_cons, slice_app by auto. rewrite L1. cbn [slice]. destruct (n <=? 0) eqn:E; [rewrite !slice_0 by lia; reflexivity|].
  destruct (op_len o <=? a) eqn:E2.
  - rewrite (slice_0 _ _ (Z.min n (op_len o - a))) by lia. cbn [app]. rewrite IH by (auto; lia). f_equal. f_equal; lia.
  - rewrite (graft_cons (cut_op _ _ _)). rewrite cut_graft by (auto; lia). f_equal. destruct (a + n <=? op_len o) eqn:E3; [rewrite !slice_0 by lia; reflexivity|]. rewrite IH by (auto; lia). f_equal. f_equal; lia.
Qed.
(** Grafting is associative. *)
Lemma graft_assoc a b c : nonempty b -> nonempty c -> fits (ops_len b) a -> nonempty a -> fits (ops_len c) b -> graft (graft a b) c = graft a (graft b c).
Proof.
  intros Hb Hc Hfa Ha Hfb. induction Ha as [|o a H1 H2 IH]; [reflexivity|]. apply fits_cons in Hfa as [Hf1 Hf2]. rewrite graft_cons, graft_app, (graft_cons o a (graft b c)), IH by exact Hf2. f_equal.
  unfold graft at 1 2 3. cbn [flat_map]. rewrite !app_nil_r. destruct o as [bs|x l|[] s l]; try reflexivity. fold (graft (slice b s l) c). fold (graft b c).
  destruct (Hf1 s l (or_introl eq_refl)). cbn [op_len] in H1. rewrite slice_graft by (auto; lia). reflexivity.
Qed.
Lemma graft_none ops older : existsb is_dict_copy ops = false -> graft ops older = ops.
Proof.
  induction ops as [|o ops IH]; intro H; [reflexivity|]. cbn [existsb] in H. apply orb_false_iff in H as [H1 H2]. rewrite graft_cons, IH by exact H2. unfold graft. cbn [flat_map]. rewrite app_nil_r.
  destruct o as [|?|[]]; try reflexivity. discriminate.
Qed.
Lemma flatten_none ops : existsb is_out_copy ops = false -> flatten ops = ops.
Proof.
  unfold flatten. assert (G : forall ops done, existsb is_out_copy ops = false -> fold_left (fun done o => done ++ match o with Copy Output a n => slice done a n | _ => [o] end) ops done = done ++ ops); [|intro H; now rewrite G].
  induction ops0 as [|o ops0 IH]; intros done H; cbn [fold_left existsb] in *; [now rewrite app_nil_r|]. apply orb_false_iff in H as [H1 H2]. rewrite IH by exact H2. rewrite <- app_assoc. f_equal.
  destruct o as [|?|[]]; try reflexivity. discriminate.
Qed.

(** ** The merger computes it *)
Lemma skip_cut m dict out q o k : zlen dict < 2 ^ 64 -> zlen out < 2 ^ 64 -> in_place dict out (q, o) -> 0 <= k < op_len o -> op_skip m o (to_u32 k) = Ok (cut_op o k (op_len o - k)).
Proof.
  intros Hd Ho Hin Hk. pose proof Hin as (Hg & Hq & He & Hb). cbn [fst snd] in *. pose proof (good_oal o Hg) as [_ Hl]. rewrite to_u32_id by lia. destruct Hg as [[Ht Hlg] Hl1].
  destruct o as [bs|b n|s a n]; cbn [op_len op_skip cut_op op_typed op_legal op_bytes] in *.
  - replace (k <=? zlen bs) with true by lia. now rewrite drop_is_sub by lia.
  - rewrite to_u8_id by lia. rewrite arith_ok by (apply to_u8_id; lia). reflexivity.
  - rewrite to_u16_id by lia.
    assert (Hr : a + n <= 2 ^ 64 - 1).
    { destruct s; [destruct (in_range dict a n) eqn:E|destruct (in_range (take q out) a n) eqn:E]; try discriminate; apply in_range_iff in E; try lia. rewrite zlen_take in E by lia. lia. }
    rewrite arith_ok by (apply to_u64_id; lia). cbn [bind]. rewrite arith_ok by (apply to_u16_id; lia). reflexivity.
Qed.
Lemma trunc_cut m o k : op_good o -> 0 <= k < op_len o -> op_trunc m o (to_u32 k) = Ok (cut_op o 0 (op_len o - k)).
Proof.
  intros Hg Hk. pose proof (good_oal o Hg) as [_ Hl]. rewrite to_u32_id by lia. destruct Hg as [[Ht Hlg] Hl1]. destruct o as [bs|b n|s a n]; cbn [op_len op_trunc cut_op op_typed op_legal] in *.
  - rewrite usub_ok by lia. cbn [bind]. now rewrite take_is_sub.
  - rewrite to_u8_id by lia. rewrite arith_ok by (apply to_u8_id; lia). reflexivity.
  - rewrite to_u16_id by lia. rewrite arith_ok by (apply to_u16_id; lia). cbn [bind]. now rewrite Z.add_0_r.
Qed.
Lemma exact_loop_slice m dict out start end_pos : zlen dict < 2 ^ 64 -> zlen out < 2 ^ 64 -> start < end_pos -> forall l q r,
  contiguous q l -> Forall (in_place dict out) l -> start < q + match l with [] => 1 | x :: _ => op_len (snd x) end -> q < end_pos ->
  exact_loop m start end_pos l = Ok (Some r) -> map snd r = slice (map snd l) (Z.max start q - q) (end_pos - Z.max start q).
Proof.
  intros Hd Ho Hse. induction l as [|[q0 o] l IH]; intros q r Hc Hp Hh Hq H; [discriminate|].
  destruct Hc as [-> Hc]. inversion Hp as [|? ? H1 H2]; subst. cbn [fst snd] in *. pose proof (good_oal o (proj1 H1)) as [Eo Hol]. cbn [snd] in Eo, Hol. cbn [exact_loop] in H. rewrite Eo in H.
  assert (S1 : (if start >? q then do c <- op_skip m o (to_u32 (start - q)); Ok (start, c) else Ok (q, o)) = Ok (Z.max start q, cut_op o (Z.max start q - q) (op_len o - (Z.max start q - q)))).
  { destruct (start >? q) eqn:E.
    - rewrite (skip_cut m dict out q o) by (auto; lia). cbn [bind]. now replace (Z.max start q) with start by lia.
    - replace (Z.max start q) with q by lia. rewrite Z.sub_diag, Z.sub_0_r, cut_all. reflexivity. }
  rewrite S1 in H. cbn [bind] in H. set (i := Z.max start q - q) in *. assert (Hi : 0 <= i < op_len o) by lia.
  assert (P1 : in_place dict out (Z.max start q, cut_op o i (op_len o - i))).
  { destruct (start >? q) eqn:E.
    - destruct (skip_pl m dict out q o (start - q) Hd Ho H1 ltac:(lia)) as (o1 & E1 & P1 & _). rewrite (skip_cut m dict out q o) in E1 by (auto; lia). injection E1 as <-.
      unfold i. replace (Z.max start q) with start by lia. replace (q + (start - q)) with start in P1 by lia. exact P1.
    - unfold i. replace (Z.max start q) with q by lia. rewrite Z.sub_diag, Z.sub_0_r, cut_all. exact H1. }
  set (n := end_pos - Z.max start q) in *. assert (Hn : 1 <= n) by lia.
  assert (S2 : (if end_pos <? q + op_len o then op_trunc m (cut_op o i (op_len o - i)) (to_u32 (q + op_len o - end_pos)) else Ok (cut_op o i (op_len o - i))) = Ok (cut_op o i (Z.min n (op_len o - i)))).
  { destruct (end_pos <? q + op_len o) eqn:E.
    - assert (L : op_len (cut_op o i (op_len o - i)) = op_len o - i) by (apply cut_len; lia). rewrite trunc_cut by (try (apply P1); rewrite L; lia). rewrite L. rewrite cut_cut by lia. f_equal. f_equal; lia.
    - now replace (Z.min n (op_len o - i)) with (op_len o - i) by lia. }
  rewrite S2 in H. cbn [bind] in H. apply bind_ok in H as ([] & _ & H). cbn [map snd slice]. replace (n <=? 0) with false by lia. replace (op_len o <=? i) with false by lia.
  destruct (q + op_len o >=? end_pos) eqn:E.
  - injection H as <-. cbn [map snd]. f_equal. symmetry. apply slice_0. lia.
  - apply bind_ok in H as (rr & HR & H). destruct rr as [rr|]; [|discriminate]. injection H as <-. cbn [map snd]. f_equal. rewrite (IH (q + op_len o) rr Hc H2); [f_equal; lia| |lia|exact HR].
    destruct l as [|x l]; [lia|]. inversion H2 as [|? ? G1 _]; subst. pose proof (good_oal _ (proj1 G1)). lia.
Qed.
Lemma exact_slice_is m dict out l start len r : zlen dict < 2 ^ 64 -> zlen out < 2 ^ 64 -> contiguous 0 l -> Forall (in_place dict out) l -> 0 <= start -> 1 <= len ->
  get_exact_slice m l start len = Ok (Some r) -> map snd r = slice (map snd l) start len.
Proof.
  intros Hd Ho Hc Hp Hs Hl E. assert (Hg : Forall (fun x => op_good (snd x)) l) by (eapply Forall_impl; [|exact Hp]; intros ? []; assumption).
  unfold get_exact_slice in E. destruct (find_controlling_spec l 0 start Hc Hg) as (i & Ei & Hr). rewrite Ei in E. cbn [bind] in E. destruct i as [i|]; [|discriminate].
  destruct Hr as (q & o & Hi & Hn & Hq). pose proof (drop_nth _ _ _ Hi Hn) as Ed.
  assert (El : l = firstn (Z.to_nat i) l ++ @cons sparse (q, o) (drop (i + 1) l)) by (etransitivity; [symmetry; apply (firstn_skipn (Z.to_nat i))|]; f_equal; exact Ed). rewrite Ed in E.
  set (tl := drop (i + 1) l) in *. pose proof (contig_nth _ _ _ _ _ Hc Hn) as Eq. pose proof Hc as Hc'. pose proof Hp as Hp'. rewrite El in Hc', Hp'.
  apply contig_app in Hc' as [_ Hc']. apply Forall_app in Hp' as [Hp1 Hp']. rewrite <- Eq in Hc'.
  rewrite (exact_loop_slice m dict out start (start + len) Hd Ho ltac:(lia) _ q r Hc' Hp' ltac:(cbn [snd]; lia) ltac:(lia) E).
  replace (Z.max start q) with start by lia. rewrite El, map_app. set (pre := firstn (Z.to_nat i) l) in *.
  assert (Npre : nonempty (map snd pre)) by (apply good_nonempty; eapply pls_ops_good; exact Hp1). fold (slen pre) in Eq |- *.
  rewrite slice_app by (auto; lia). fold (slen pre). rewrite (slice_0 (map snd pre)) by lia. cbn [app]. f_equal; lia.
Qed.
Lemma deref_loop_flat m dict out : zlen dict < 2 ^ 64 -> zlen out < 2 ^ 64 -> forall ext output, Forall (in_place dict out) ext -> contiguous (slen output) ext ->
  contiguous 0 output -> Forall (in_place dict out) output -> no_out output ->
  exists r, deref_loop m ext output (slen output) = Ok r /\ contiguous 0 r /\ Forall (in_place dict out) r /\ no_out r /\ slen r = slen output + slen ext /\
    map snd r = fold_left (fun done o => done ++ match o with Copy Output a n => slice done a n | _ => [o] end) (map snd ext) (map snd output).
Proof.
  intros Hd Ho. induction ext as [|[q o] ext IH]; intros output Hp Hc Hc0 Hpo Hno; cbn [deref_loop].
  - exists output. repeat split; auto; unfold slen; cbn; lia.
  - destruct Hc as [-> Hc]. inversion Hp as [|? ? H1 H2]; subst. pose proof (slen_nonneg _ (pls_good _ _ _ Hpo)) as Hsl.
    assert (HR : exists res, match o with Copy Output a n => do r <- get_exact_slice m output a n; match r with Some l => Ok l | None => Panic end | _ => Ok [(0, o)] end = Ok res /\
       Forall (fun x => op_good (snd x)) res /\ slen res = op_len o /\ no_out res /\ Forall (in_place dict out) (number (slen output) (map snd res)) /\
       map snd res = match o with Copy Output a n => slice (map snd output) a n | _ => [o] end).
    { assert (HN : is_out_copy o = false -> exists res, Ok [(0, o)] = Ok res /\
       Forall (fun x => op_good (snd x)) res /\ slen res = op_len o /\ no_out res /\ Forall (in_place dict out) (number (slen output) (map snd res)) /\
       map snd res = match o with Copy Output a n => slice (map snd output) a n | _ => [o] end).
      { intro Hn. exists [(0, o)]. split; [reflexivity|]. split; [constructor; [apply H1|constructor]|]. split; [unfold slen; cbn; lia|].
        split; [constructor; [exact Hn|constructor]|]. split; [constructor; [exact H1|constructor]|]. destruct o as [|?|[]]; try reflexivity; discriminate. }
      destruct o as [bs|b n|[] a n]; try (apply HN; reflexivity). clear HN.
      destruct H1 as (Hg & _ & He & Hb). cbn [fst snd op_len op_bytes] in *. pose proof (good_oal _ Hg) as [_ Hl]. cbn [op_len] in Hl.
      destruct (in_range (take (slen output) out) a n) eqn:E; [|discriminate]. injection Hb as Hb. apply in_range_iff in E as [Ha Han]; [|lia].
      rewrite zlen_take in Han by lia. pose proof (exact_slice_spec m dict out output a n Hd Ho Hc0 Hpo Ha ltac:(lia)) as HE.
      replace (a + n <=? slen output) with true in HE by lia. destruct HE as (r & HX & C & P & L & K & N). rewrite HX. cbn [bind]. exists r. split; [reflexivity|].
      split; [now apply pls_good in P|]. split; [exact L|]. pose proof (no_out_kinds _ _ K Hno) as Hnr. split; [exact Hnr|]. split.
      - apply (pl_move_all dict out out r a); auto; rewrite ?L; try lia. rewrite <- Hb. rewrite take_is_sub. rewrite sub_sub by lia. reflexivity.
      - eapply exact_slice_is; [exact Hd|exact Ho|exact Hc0|exact Hpo|lia| |exact HX]; lia. }
    destruct HR as (res & -> & Hgr & Lr & Nr & Pr & Dr). cbn [bind]. rewrite place_spec by exact Hgr.
    assert (Esl : slen output + slen res = slen (output ++ number (slen output) (map snd res))) by (rewrite slen_app, slen_number; reflexivity).
    rewrite Esl. destruct (IH (output ++ number (slen output) (map snd res))) as (r & E & C & P & N & L & D).
    + exact H2.
    + rewrite <- Esl, Lr. exact Hc.
    + apply contig_app. split; [exact Hc0|apply number_contig].
    + apply Forall_app. split; [exact Hpo|exact Pr].
    + apply Forall_app. split; [exact Hno|]. apply no_out_number. now apply no_out_ops.
    + exists r. split; [exact E|]. split; [exact C|]. split; [exact P|]. split; [exact N|]. split; [rewrite L, <- Esl, slen_cons; cbn [snd]; lia|].
      rewrite D, map_app, number_snd, Dr. reflexivity.
Qed.
Lemma deref_flat m dict ops out : zlen dict < 2 ^ 64 -> zlen out < 2 ^ 64 -> Forall op_good ops -> run_ops dict [] ops = Some out ->
  exists r, deref_copy_o m (number 0 ops) = Ok r /\ contiguous 0 r /\ Forall (in_place dict out) r /\ no_out r /\ slen r = zlen out /\ map snd r = flatten ops.
Proof.
  intros Hd Ho Hg Hr. destruct (run_number dict ops [] out Hg Hr) as [Hp Hz]. rewrite (@zlen_nil Z) in *.
  destruct (deref_loop_flat m dict out Hd Ho (number 0 ops) [] Hp) as (r & E & C & P & N & L & D); try (now constructor).
  { apply number_contig. }
  exists r. split; [exact E|]. split; [exact C|]. split; [exact P|]. split; [exact N|]. split; [rewrite L, slen_number, Hz; unfold slen; cbn; lia|].
  rewrite D, number_snd. reflexivity.
Qed.
Lemma place_ops : forall l pos, map snd (fst (place l pos)) = map snd l.
Proof. induction l as [|[q o] l IH]; intro pos; [reflexivity|]. cbn [place]. specialize (IH (pos + oal o)). destruct (place l (pos + oal o)). cbn [fst map snd] in *. now rewrite IH. Qed.
Lemma merge_loop_graft m src mid out T P : zlen src < 2 ^ 64 -> zlen mid < 2 ^ 64 -> contiguous 0 P -> Forall (in_place src mid) P ->
  forall t2 t1 shift pos ix ins, T = t1 ++ t2 -> Forall (in_place mid out) t2 -> merge_loop m T P (find_mergeable t2 (zlen t1)) shift = Ok (ix, ins) ->
  keys_from (zlen t1) ins /\ map snd (expand_loop t2 ins (zlen t1) pos) = graft (map snd t2) (map snd P).
Proof.
  intros Hs Hm Hc Hp. induction t2 as [|[q o] t2 IH]; intros t1 shift pos ix ins ET Hp2 H.
  - cbn [find_mergeable merge_loop] in H. injection H as <- <-. split; [exact I|reflexivity].
  - inversion Hp2 as [|? ? H1 H2]; subst. cbn [find_mergeable] in H. assert (Ezl : zlen (t1 ++ [(q, o)]) = zlen t1 + 1) by (rewrite zlen_app; reflexivity).
    cbn [map snd]. rewrite graft_cons. destruct (is_dict_copy o) eqn:Ed.
    + destruct o as [|?|[] a n]; try discriminate. cbn [app merge_loop] in H.
      assert (Ei : idx (t1 ++ (q, Copy Dict a n) :: t2) (zlen t1) = Ok (q, Copy Dict a n)).
      { unfold idx. pose proof (zlen_nonneg t1). replace (zlen t1 <? 0) with false by lia. unfold zlen. rewrite Nat2Z.id. rewrite nth_error_app2 by lia. now rewrite Nat.sub_diag. }
      rewrite Ei in H. cbn [bind snd] in H. apply bind_ok in H as ([] & _ & H). apply bind_ok in H as (r & HX & H). destruct r as [r|]; [|discriminate].
      apply bind_ok in H as (k & _ & H). apply bind_ok in H as ([ix' ins'] & HM & H). injection H as <- <-.
      destruct H1 as (Hg & _ & He & Hb). pose proof (good_oal _ Hg) as [_ Hl]. cbn [fst snd op_len op_bytes] in *. destruct (in_range mid a n) eqn:E; [|discriminate]. apply in_range_iff in E as [Ha Han]; [|lia].
      pose proof (exact_slice_is m src mid P a n r Hs Hm Hc Hp Ha ltac:(lia) HX) as HE. rewrite <- Ezl in HM.
      cbn [expand_loop]. rewrite Z.sub_diag. rewrite (take_0 0), (drop_0 0) by lia. cbn [place]. pose proof (place_ops r pos) as HP. destruct (place r pos) as [l2 p2]. cbn [fst] in HP.
      cbn [app]. rewrite (@zlen_nil (Z * op)). replace (zlen t1 + 0 + 1) with (zlen t1 + 1) by lia. change (drop 1 ((q, Copy Dict a n) :: t2)) with t2.
      specialize (IH (t1 ++ [(q, Copy Dict a n)]) (shift + k) p2 ix' ins'). rewrite <- app_assoc in IH. specialize (IH eq_refl H2 HM). rewrite Ezl in IH. destruct IH as [K1 K2].
      split; [cbn [keys_from fst]; split; [lia|exact K1]|]. rewrite map_app, HP, HE, K2. f_equal. unfold graft. cbn [flat_map]. now rewrite app_nil_r.
    + cbn [app] in H. rewrite <- Ezl in H. specialize (IH (t1 ++ [(q, o)]) shift (pos + oal o) ix ins). rewrite <- app_assoc in IH. specialize (IH eq_refl H2 H). rewrite Ezl in IH. destruct IH as [K1 K2].
      split; [eapply keys_from_le; [|exact K1]; lia|]. rewrite expand_cons by exact K1. cbn [map snd]. rewrite K2. unfold graft at 2. cbn [flat_map]. rewrite app_nil_r. destruct o as [|?|[]]; try discriminate; reflexivity.
Qed.

(** ** new and merge *)
Lemma merger_new_graft m cd patch src out ops r : zlen src < 2 ^ 63 -> zlen out < 2 ^ 63 -> applies m cd patch src out -> reads_as m cd patch ops -> Forall op_good ops ->
  merger_new m cd patch = Ok r -> summary_of r = flatten ops.
Proof.
  intros Hs Ho HA HR Hg H. destruct (applies_extract _ _ _ _ _ _ HA HR (good_ok _ Hg)) as [HE Hrun]. unfold merger_new in H. rewrite HE in H. cbn [bind] in H.
  rewrite stats_fold in H by now apply good_ok. cbn [st_copy_bytes stats_new] in H. destruct (copy_bytes_zero _ Hg) as [Hb0 Hb1].
  destruct (0 + 2 * bytes_of is_copy ops =? 0) eqn:E.
  - rewrite number_snd in H. injection H as <-. assert (Hn : existsb is_copy ops = false) by (apply Hb1; lia). rewrite copy_split in Hn. apply orb_false_iff in Hn as [_ Hn]. symmetry. now apply flatten_none.
  - destruct (deref_flat m src ops out ltac:(lia) ltac:(lia) Hg Hrun) as (t & Et & _ & _ & _ & _ & D). rewrite Et in H. cbn [bind] in H. apply bind_ok in H as ([] & _ & H). injection H as <-. exact D.
Qed.
Lemma merger_merge_graft m cd g patch src mid out ops r : zlen src < 2 ^ 63 -> zlen mid < 2 ^ 63 -> merger_for mid out g ->
  applies m cd patch src mid -> reads_as m cd patch ops -> Forall op_good ops ->
  merger_merge m cd g patch = Ok r -> summary_of r = graft (merger_finish g) (flatten ops).
Proof.
  intros Hs Hm (C & P & N & L & X) HA HR Hg H. destruct (applies_extract _ _ _ _ _ _ HA HR (good_ok _ Hg)) as [HE Hrun]. unfold merger_merge in H.
  apply bind_ok in H as ([] & _ & H). rewrite HE in H. cbn [bind] in H. rewrite stats_fold in H by now apply good_ok. cbn [st_copy_bytes stats_new] in H. destruct (copy_bytes_zero _ Hg) as [Hb0 Hb1].
  apply bind_ok in H as (pr & HP & H).
  assert (HPr : contiguous 0 pr /\ Forall (in_place src mid) pr /\ map snd pr = flatten ops).
  { destruct (0 + 2 * bytes_of is_copy ops >? 0) eqn:E.
    - destruct (deref_flat m src ops mid ltac:(lia) ltac:(lia) Hg Hrun) as (t & E1 & C1 & P1 & _ & _ & D1). rewrite E1 in HP. injection HP as <-. auto.
    - injection HP as <-. split; [apply number_contig|]. destruct (run_number src ops [] mid Hg Hrun) as [P1 _]. rewrite (@zlen_nil Z) in *.
      split; [exact P1|]. rewrite number_snd. assert (Hn : existsb is_copy ops = false) by (apply Hb1; lia). rewrite copy_split in Hn. apply orb_false_iff in Hn as [_ Hn]. symmetry. now apply flatten_none. }
  destruct HPr as (C1 & P1 & D1). apply bind_ok in H as ([ix ins] & HM & H). rewrite X in HM.
  destruct (merge_loop_graft m src mid out (mg_patch g) pr ltac:(lia) ltac:(lia) C1 P1 (mg_patch g) [] 0 0 ix ins eq_refl P HM) as [K D]. change (zlen (@nil sparse)) with 0 in *.
  assert (Ee : expand_to (mg_patch g) ins = expand_loop (mg_patch g) ins 0 0) by (unfold expand_to; rewrite (sort_id ins 0 K); reflexivity).
  rewrite Ee in H. unfold merger_finish. rewrite <- D1, <- D. destruct (zlen ix =? 0); injection H as <-; reflexivity.
Qed.
