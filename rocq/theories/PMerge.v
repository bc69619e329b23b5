(** Proofs about smdiff-merger. *)
From Verif Require Import Base Spec MCommon MWriter MReader MDecoder MEncode MMerger SpecApi SpecMerge PBase PSection PDecoder PPatch PEncode.
Ltac Zify.zify_post_hook ::= idtac.
Arguments Z.add : simpl never.
Arguments Z.sub : simpl never.
Arguments Z.mul : simpl never.
Arguments Z.pow : simpl never.

Definition kind (o : op) : Z := type_code o.

Lemma good_oal o : op_good o -> oal o = op_len o /\ 1 <= op_len o <= 65535.
Proof. intros [H1 H2]. destruct (oal_op_ok o H1). lia. Qed.
Lemma slen_cons x l : slen (x :: l) = op_len (snd x) + slen l. Proof. reflexivity. Qed.
Lemma slen_app a b : slen (a ++ b) = slen a + slen b. Proof. unfold slen. now rewrite map_app, ops_len_app. Qed.
Lemma contig_app a : forall p b, contiguous p (a ++ b) <-> contiguous p a /\ contiguous (p + slen a) b.
Proof.
  induction a as [|[q o] a IH]; intros p b; cbn [app contiguous].
  - unfold slen. cbn. rewrite Z.add_0_r. tauto.
  - rewrite IH, slen_cons. cbn [snd]. rewrite Z.add_assoc. tauto.
Qed.

Lemma in_range_iff l a n : 1 <= n -> in_range l a n = true <-> 0 <= a /\ a + n <= zlen l.
Proof. intro H. unfold in_range. lia. Qed.

Lemma skip_pl m dict out q o k : zlen dict < 2 ^ 64 -> zlen out < 2 ^ 64 -> in_place dict out (q, o) -> 0 <= k < op_len o ->
  exists o', op_skip m o (to_u32 k) = Ok o' /\ in_place dict out (q + k, o') /\ op_len o' = op_len o - k /\ kind o' = kind o.
Proof.
  intros Hd Ho (Hg & Hq & He & Hb) Hk. cbn [fst snd] in *. pose proof (good_oal o Hg) as [_ Hl]. rewrite to_u32_id by lia.
  destruct Hg as [[Ht Hlg] Hl1]. destruct o as [bs|b n|s a n]; cbn [op_len op_skip op_typed op_legal op_bytes] in *.
  - replace (k <=? zlen bs) with true by lia. eexists. split; [reflexivity|]. assert (E : zlen (drop k bs) = zlen bs - k) by (rewrite zlen_drop; lia).
    split; [|split; [cbn [op_len]; exact E|reflexivity]]. unfold in_place, op_good, op_ok. cbn [fst snd op_typed op_legal op_bytes op_len]. rewrite E.
    injection Hb as Hb. repeat split; try lia; try (now apply Forall_drop). f_equal. rewrite drop_is_sub by lia.
    transitivity (sub (sub out q (zlen bs)) k (zlen bs - k)); [now rewrite <- Hb|]. rewrite sub_sub by lia. reflexivity.
  - rewrite to_u8_id by lia. rewrite arith_ok by (apply to_u8_id; lia). cbn [bind]. eexists. split; [reflexivity|].
    split; [|split; reflexivity]. unfold in_place, op_good, op_ok. cbn [fst snd op_typed op_legal op_bytes op_len].
    injection Hb as Hb. repeat split; try lia; try (apply Ht). f_equal. replace (sub out (q + k) (n - k)) with (sub (sub out q n) k (n - k)) by (rewrite sub_sub by lia; f_equal; lia).
    rewrite <- Hb. now rewrite sub_rep by lia.
  - rewrite to_u16_id by lia.
    assert (Hr : exists d, (s = Dict /\ d = dict \/ s = Output /\ d = take q out) /\ 0 <= a /\ a + n <= zlen d /\ sub d a n = sub out q n).
    { destruct s; [exists dict|exists (take q out)]; (split; [auto|]);
        [destruct (in_range dict a n) eqn:E|destruct (in_range (take q out) a n) eqn:E]; try discriminate; injection Hb as Hb;
        apply in_range_iff in E; try lia; split; [lia| split; [lia|exact Hb]| lia | split; [lia|exact Hb]]. }
    destruct Hr as (d & Hs & Ha & Han & Hsub).
    assert (Hzd : zlen d < 2 ^ 64) by (destruct Hs as [[_ ->]|[_ ->]]; [lia|rewrite zlen_take; lia]).
    rewrite arith_ok by (apply to_u64_id; lia). cbn [bind]. rewrite arith_ok by (apply to_u16_id; lia). cbn [bind].
    eexists. split; [reflexivity|]. split; [|split; [reflexivity|destruct s; reflexivity]]. unfold in_place, op_good, op_ok. cbn [fst snd op_typed op_legal op_len].
    repeat split; try lia. assert (Hsub' : sub d (a + k) (n - k) = sub out (q + k) (n - k)).
    { transitivity (sub (sub d a n) k (n - k)); [rewrite sub_sub by lia; reflexivity|]. rewrite Hsub, sub_sub by lia. reflexivity. }
    cbn [op_bytes]. destruct Hs as [[-> ->]|[-> ->]].
    + replace (in_range dict (a + k) (n - k)) with true by (symmetry; apply in_range_iff; lia). f_equal. exact Hsub'.
    + rewrite zlen_take in Han by lia.
      replace (in_range (take (q + k) out) (a + k) (n - k)) with true by (symmetry; apply in_range_iff; [lia|]; rewrite zlen_take by lia; lia).
      f_equal. rewrite <- Hsub'. rewrite !take_is_sub. rewrite !sub_sub by lia. reflexivity.
Qed.

Lemma trunc_pl m dict out q o k : zlen out < 2 ^ 64 -> in_place dict out (q, o) -> 0 <= k < op_len o ->
  exists o', op_trunc m o (to_u32 k) = Ok o' /\ in_place dict out (q, o') /\ op_len o' = op_len o - k /\ kind o' = kind o.
Proof.
  intros Ho (Hg & Hq & He & Hb) Hk. cbn [fst snd] in *. pose proof (good_oal o Hg) as [_ Hl]. rewrite to_u32_id by lia.
  destruct Hg as [[Ht Hlg] Hl1]. destruct o as [bs|b n|s a n]; cbn [op_len op_trunc op_typed op_legal op_bytes] in *.
  - rewrite usub_ok by lia. cbn [bind]. eexists. split; [reflexivity|].
    assert (E : zlen (take (zlen bs - k) bs) = zlen bs - k) by (rewrite zlen_take; lia).
    split; [|split; [cbn [op_len]; exact E|reflexivity]]. unfold in_place, op_good, op_ok. cbn [fst snd op_typed op_legal op_bytes op_len]. rewrite E.
    injection Hb as Hb. repeat split; try lia; try (now apply Forall_take). f_equal. transitivity (take (zlen bs - k) (sub out q (zlen bs))); [now rewrite <- Hb|]. now rewrite take_sub by lia.
  - rewrite to_u8_id by lia. rewrite arith_ok by (apply to_u8_id; lia). cbn [bind]. eexists. split; [reflexivity|].
    split; [|split; reflexivity]. unfold in_place, op_good, op_ok. cbn [fst snd op_typed op_legal op_bytes op_len].
    injection Hb as Hb. repeat split; try lia; try (apply Ht). f_equal. rewrite <- (take_sub out q n) by lia. rewrite <- Hb. rewrite take_is_sub. now rewrite sub_rep by lia.
  - rewrite to_u16_id by lia. rewrite arith_ok by (apply to_u16_id; lia). cbn [bind].
    eexists. split; [reflexivity|]. split; [|split; [reflexivity|destruct s; reflexivity]]. unfold in_place, op_good, op_ok. cbn [fst snd op_typed op_legal op_len].
    repeat split; try lia. cbn [op_bytes]. destruct s.
    + destruct (in_range dict a n) eqn:E; [|discriminate]. injection Hb as Hb. apply in_range_iff in E; [|lia].
      replace (in_range dict a (n - k)) with true by (symmetry; apply in_range_iff; lia). f_equal.
      rewrite <- (take_sub out q n), <- (take_sub dict a n) by lia. now rewrite Hb.
    + destruct (in_range (take q out) a n) eqn:E; [|discriminate]. injection Hb as Hb. apply in_range_iff in E; [|lia].
      replace (in_range (take q out) a (n - k)) with true by (symmetry; apply in_range_iff; lia). f_equal.
      rewrite <- (take_sub out q n), <- (take_sub (take q out) a n) by lia. now rewrite Hb.
Qed.

(** ** find_controlling_op *)
Lemma contig_nth l : forall p i q o, contiguous p l -> nth_error l i = Some (q, o) -> q = p + slen (firstn i l).
Proof.
  induction l as [|[q0 o0] l IH]; intros p i q o Hc Hn; [destruct i; discriminate|]. destruct Hc as [-> Hc]. destruct i as [|i].
  - injection Hn as -> ->. unfold slen. cbn. lia.
  - cbn [nth_error firstn] in *. rewrite slen_cons. cbn [snd]. rewrite (IH _ _ _ _ Hc Hn). lia.
Qed.
Lemma slen_nonneg l : Forall (fun x => op_good (snd x)) l -> 0 <= slen l.
Proof. induction 1 as [|x l H _ IH]; [unfold slen; cbn; lia|]. rewrite slen_cons. pose proof (good_oal _ H). lia. Qed.
Lemma Forall_firstn {A} (P : A -> Prop) n l : Forall P l -> Forall P (firstn n l).
Proof. revert l. induction n; intros l H; [constructor|]. destruct H; cbn; constructor; auto. Qed.
Lemma contig_mono l p i j qi oi qj oj : contiguous p l -> Forall (fun x => op_good (snd x)) l ->
  nth_error l i = Some (qi, oi) -> nth_error l j = Some (qj, oj) -> (i < j)%nat -> qi + op_len oi <= qj.
Proof.
  intros Hc Hg Hi Hj Hlt. rewrite (contig_nth _ _ _ _ _ Hc Hi), (contig_nth _ _ _ _ _ Hc Hj).
  assert (E : exists rest, firstn j l = firstn i l ++ (qi, oi) :: rest /\ Forall (fun x => op_good (snd x)) rest).
  { apply nth_error_split in Hi as (l1 & l2 & -> & <-). exists (firstn (j - length l1 - 1) l2).
    rewrite !firstn_app. rewrite (firstn_all2 l1) by lia. rewrite firstn_all, Nat.sub_diag, firstn_O, app_nil_r.
    replace (j - length l1)%nat with (S (j - length l1 - 1)) by lia. cbn [firstn]. replace (S (j - length l1 - 1) - 1)%nat with (j - length l1 - 1)%nat by lia. split; [reflexivity|].
    apply Forall_firstn. apply Forall_app in Hg as [_ Hg]. now inversion Hg. }
  destruct E as (rest & -> & Hr). rewrite slen_app, slen_cons. cbn [snd]. pose proof (slen_nonneg _ Hr). lia.
Qed.

Lemma binary_search_spec l p pos : contiguous p l -> Forall (fun x => op_good (snd x)) l -> forall fuel left size,
  (Z.to_nat size < fuel)%nat -> 0 <= left -> 0 <= size -> left + size <= zlen l ->
  (forall i q o, nth_error l i = Some (q, o) -> Z.of_nat i < left -> q + op_len o <= pos) ->
  (forall i q o, nth_error l i = Some (q, o) -> left + size <= Z.of_nat i -> pos < q) ->
  exists r, binary_search fuel (probe_cmp pos) l left size = Ok r /\
    match r with
    | Some i => exists q o, 0 <= i /\ nth_error l (Z.to_nat i) = Some (q, o) /\ q <= pos < q + op_len o
    | None => forall q o, In (q, o) l -> ~ (q <= pos < q + op_len o)
    end.
Proof.
  intros Hc Hg. induction fuel as [|k IH]; intros left size Hf Hl Hs Hz HL HR; [lia|]. cbn [binary_search].
  destruct (size <=? 0) eqn:Es.
  - eexists. split; [reflexivity|]. intros q o Hin. apply In_nth_error in Hin as (i & Hi).
    destruct (Z.ltb_spec (Z.of_nat i) left); [specialize (HL _ _ _ Hi); lia|specialize (HR _ _ _ Hi); lia].
  - assert (Hh : 0 <= size / 2 < size) by (split; [apply Z.div_pos; lia|apply Z.div_lt_upper_bound; lia]).
    destruct (idx_ok l (left + size / 2) ltac:(lia)) as ([q o] & -> & Hn). cbn [bind].
    assert (Hgo : op_good o) by (eapply Forall_forall in Hg; [|eapply nth_error_In; exact Hn]; exact Hg).
    pose proof (good_oal o Hgo) as [Eo Hol]. unfold probe_cmp at 1. cbn [fst snd]. rewrite Eo.
    destruct ((q <=? pos) && (pos <? q + op_len o)) eqn:E1.
    + eexists. split; [reflexivity|]. exists q, o. split; [lia|]. split; [exact Hn|lia].
    + destruct (q >? pos) eqn:E2.
      * apply IH; try lia; [exact HL|]. intros i q' o' Hi Hge. destruct (Z.eq_dec (Z.of_nat i) (left + size / 2)) as [e|ne].
        -- replace i with (Z.to_nat (left + size / 2)) in Hi by lia. rewrite Hn in Hi. injection Hi as <- <-. lia.
        -- pose proof (contig_mono _ _ _ _ _ _ _ _ Hc Hg Hn Hi ltac:(lia)). lia.
      * apply IH; [lia|lia|lia|lia| |intros i q' o' Hi Hge; apply (HR i q' o' Hi); lia].
        intros i q' o' Hi Hlt. destruct (Z.eq_dec (Z.of_nat i) (left + size / 2)) as [e|ne].
        -- replace i with (Z.to_nat (left + size / 2)) in Hi by lia. rewrite Hn in Hi. injection Hi as <- <-. lia.
        -- pose proof (contig_mono _ _ _ _ _ _ _ _ Hc Hg Hi Hn ltac:(lia)). lia.
Qed.
Lemma find_controlling_spec l p pos : contiguous p l -> Forall (fun x => op_good (snd x)) l ->
  exists r, find_controlling_op l pos = Ok r /\
    match r with
    | Some i => exists q o, 0 <= i /\ nth_error l (Z.to_nat i) = Some (q, o) /\ q <= pos < q + op_len o
    | None => forall q o, In (q, o) l -> ~ (q <= pos < q + op_len o)
    end.
Proof.
  intros Hc Hg. pose proof (zlen_nonneg l). apply (binary_search_spec l p); auto; try lia.
  - unfold zlen; lia.
  - intros i q o Hi Hge. assert (nth_error l i <> None) by congruence. apply nth_error_Some in H0. unfold zlen in Hge. lia.
Qed.
(** A contiguous list covers every position of its range. *)
Lemma contig_covers l : forall p pos, contiguous p l -> Forall (fun x => op_good (snd x)) l -> p <= pos < p + slen l ->
  exists q o, In (q, o) l /\ q <= pos < q + op_len o.
Proof.
  induction l as [|[q o] l IH]; intros p pos Hc Hg Hp; [unfold slen in Hp; cbn in Hp; lia|]. destruct Hc as [-> Hc].
  rewrite slen_cons in Hp. cbn [snd] in Hp. inversion Hg as [|? ? H1 H2]; subst.
  destruct (Z.ltb_spec pos (p + op_len o)); [exists p, o; split; [now left|lia]|].
  destruct (IH _ pos Hc H2) as (q' & o' & Hin & Hr); [lia|]. exists q', o'. split; [now right|exact Hr].
Qed.
Lemma contig_in_range l : forall p q o, contiguous p l -> Forall (fun x => op_good (snd x)) l -> In (q, o) l -> p <= q /\ q + op_len o <= p + slen l.
Proof.
  induction l as [|[q0 o0] l IH]; intros p q o Hc Hg Hin; [destruct Hin|]. destruct Hc as [-> Hc]. inversion Hg as [|? ? H1 H2]; subst.
  rewrite slen_cons. cbn [snd] in *. pose proof (good_oal _ H1). pose proof (slen_nonneg _ H2). destruct Hin as [E|Hin]; [injection E as <- <-; lia|].
  destruct (IH _ _ _ Hc H2 Hin). lia.
Qed.

(** ** get_exact_slice *)
Definition kinds_in (l r : list sparse) : Prop := forall x, In x r -> exists y, In y l /\ kind (snd y) = kind (snd x).

Lemma exact_loop_spec m dict out start end_pos : zlen dict < 2 ^ 64 -> zlen out < 2 ^ 64 -> start < end_pos -> forall l q,
  contiguous q l -> Forall (in_place dict out) l -> start < q + match l with [] => 1 | x :: _ => op_len (snd x) end -> q < end_pos ->
  if q + slen l <? end_pos then exact_loop m start end_pos l = Ok None
  else exists r, exact_loop m start end_pos l = Ok (Some r) /\ contiguous (Z.max start q) r /\ Forall (in_place dict out) r /\
    slen r = end_pos - Z.max start q /\ kinds_in l r /\ r <> [].
Proof.
  intros Hd Ho Hse. induction l as [|[q0 o] l IH]; intros q Hc Hp Hh Hq.
  - unfold slen. cbn [map ops_len fold_right exact_loop]. replace (q + 0 <? end_pos) with true by lia. reflexivity.
  - destruct Hc as [-> Hc]. inversion Hp as [|? ? H1 H2]; subst. cbn [fst snd] in *. rewrite slen_cons. cbn [snd].
    pose proof (good_oal o (proj1 H1)) as [Eo Hol]. cbn [exact_loop]. rewrite Eo.
    assert (S1 : exists o1, (if start >? q then do c <- op_skip m o (to_u32 (start - q)); Ok (start, c) else Ok (q, o)) = Ok (Z.max start q, o1) /\
       in_place dict out (Z.max start q, o1) /\ op_len o1 = op_len o - (Z.max start q - q) /\ kind o1 = kind o).
    { destruct (start >? q) eqn:E.
      - destruct (skip_pl m dict out q o (start - q) Hd Ho H1 ltac:(lia)) as (o1 & -> & P1 & P2 & P3). cbn [bind]. exists o1.
        replace (Z.max start q) with start by lia. replace (q + (start - q)) with start in P1 by lia. auto.
      - exists o. replace (Z.max start q) with q by lia. repeat split; auto; try lia; apply H1. }
    destruct S1 as (o1 & -> & P1 & L1 & K1). cbn [bind].
    assert (Hsl : 0 <= slen l) by (apply slen_nonneg; eapply Forall_impl; [|exact H2]; intros ? []; assumption).
    assert (S2 : exists o2, (if end_pos <? q + op_len o then op_trunc m o1 (to_u32 (q + op_len o - end_pos)) else Ok o1) = Ok o2 /\
       in_place dict out (Z.max start q, o2) /\ op_len o2 = Z.min end_pos (q + op_len o) - Z.max start q /\ kind o2 = kind o).
    { destruct (end_pos <? q + op_len o) eqn:E.
      - destruct (trunc_pl m dict out _ o1 (q + op_len o - end_pos) Ho P1 ltac:(lia)) as (o2 & -> & P2 & L2 & K2). exists o2. repeat split; try (apply P2); try lia; congruence.
      - exists o1. repeat split; try (apply P1); try lia; congruence. }
    destruct S2 as (o2 & -> & P2 & L2 & K2). cbn [bind]. pose proof (good_oal o2 (proj1 P2)) as [Eo2 Hol2]. rewrite Eo2.
    replace (op_len o2 >? 0) with true by lia. assert (Edbg : debug_assert_ m true = Ok tt) by (destruct m; reflexivity). rewrite Edbg. cbn [bind].
    destruct (q + op_len o >=? end_pos) eqn:E.
    + replace (q + (op_len o + slen l) <? end_pos) with false by lia. eexists. split; [reflexivity|]. split; [cbn; auto|].
      split; [constructor; [exact P2|constructor]|]. split; [|split; [|discriminate]].
      * unfold slen. cbn [map ops_len fold_right snd]. lia.
      * intros x [<-|[]]. exists (q, o). split; [now left|]. cbn. congruence.
    + assert (HI := IH (q + op_len o) Hc H2). rewrite Z.add_assoc. destruct (q + op_len o + slen l <? end_pos) eqn:E2.
      * rewrite HI; [reflexivity| |lia]. destruct l as [|x l]; [lia|]. inversion H2 as [|? ? G1 _]; subst. pose proof (good_oal _ (proj1 G1)). lia.
      * destruct HI as (r & -> & C & P & L & K & N); [|lia|].
        { destruct l as [|x l]; [lia|]. inversion H2 as [|? ? G1 _]; subst. pose proof (good_oal _ (proj1 G1)). lia. }
        cbn [bind]. eexists. split; [reflexivity|]. replace (Z.max start (q + op_len o)) with (q + op_len o) in C, L by lia.
        split; [|split; [constructor; assumption|split; [|split; [|discriminate]]]].
        -- cbn [contiguous]. split; [reflexivity|]. replace (Z.max start q + op_len o2) with (q + op_len o) by lia. exact C.
        -- rewrite slen_cons. cbn [snd]. lia.
        -- intros x [<-|Hin]; [exists (q, o); split; [now left|cbn; congruence]|]. destruct (K x Hin) as (y & Hy & Ey). exists y. split; [now right|exact Ey].
Qed.

Lemma drop_nth {A} (l : list A) i x : 0 <= i -> nth_error l (Z.to_nat i) = Some x -> drop i l = x :: drop (i + 1) l.
Proof.
  intros Hi H. unfold drop. replace (Z.to_nat (i + 1)) with (S (Z.to_nat i)) by lia. revert l H.
  induction (Z.to_nat i) as [|n IH]; intros l H; destruct l; try discriminate; cbn in *; [now injection H as ->|now apply IH].
Qed.
Lemma exact_slice_spec m dict out l start len : zlen dict < 2 ^ 64 -> zlen out < 2 ^ 64 -> contiguous 0 l -> Forall (in_place dict out) l -> 0 <= start -> 1 <= len ->
  if start + len <=? slen l then exists r, get_exact_slice m l start len = Ok (Some r) /\ contiguous start r /\ Forall (in_place dict out) r /\
    slen r = len /\ kinds_in l r /\ r <> []
  else get_exact_slice m l start len = Ok None.
Proof.
  intros Hd Ho Hc Hp Hs Hl. assert (Hg : Forall (fun x => op_good (snd x)) l) by (eapply Forall_impl; [|exact Hp]; intros ? []; assumption).
  unfold get_exact_slice. destruct (find_controlling_spec l 0 start Hc Hg) as (r & -> & Hr). cbn [bind]. destruct r as [i|].
  - destruct Hr as (q & o & Hi & Hn & Hq). pose proof (drop_nth _ _ _ Hi Hn) as Ed.
    assert (El : l = firstn (Z.to_nat i) l ++ @cons sparse (q, o) (drop (i + 1) l)) by (etransitivity; [symmetry; apply (firstn_skipn (Z.to_nat i))|]; f_equal; exact Ed). rewrite Ed.
    set (tl := drop (i + 1) l) in *. pose proof (contig_nth _ _ _ _ _ Hc Hn) as Eq. rewrite El in Hc, Hp. apply contig_app in Hc as [_ Hc]. apply Forall_app in Hp as [_ Hp].
    rewrite <- Eq in Hc. assert (Esl : slen l = q + slen ((q, o) :: tl)) by (rewrite El, slen_app; lia).
    pose proof (exact_loop_spec m dict out start (start + len) Hd Ho ltac:(lia) _ q Hc Hp) as HE. cbn [snd] in HE. specialize (HE ltac:(lia) ltac:(lia)).
    rewrite Esl. destruct (start + len <=? q + slen ((q, o) :: tl)) eqn:E.
    + replace (q + slen ((q, o) :: tl) <? start + len) with false in HE by lia. destruct HE as (r & -> & C & P & L & K & N).
      replace (Z.max start q) with start in * by lia. exists r. split; [reflexivity|]. split; [exact C|]. split; [exact P|]. split; [lia|]. split; [|exact N].
      intros x Hx. destruct (K x Hx) as (y & Hy & Ey). exists y. split; [|exact Ey]. rewrite El. apply in_or_app. now right.
    + now replace (q + slen ((q, o) :: tl) <? start + len) with true in HE by lia.
  - destruct (start + len <=? slen l) eqn:E; [|reflexivity]. exfalso.
    destruct (contig_covers l 0 start Hc Hg ltac:(lia)) as (q & o & Hin & Hr'). exact (Hr _ _ Hin Hr').
Qed.
