(** Merging arbitrary operations (also empty ones, also copies that reach nowhere) in a build without overflow checks: when it panics. *)
From Verif Require Import Base Spec MCommon MWriter MReader MDecoder MMerger SpecApi SpecMerge PBase PStream PDecoder PMerge PMerge2.
Ltac Zify.zify_post_hook ::= idtac.
Arguments Z.add : simpl never.
Arguments Z.sub : simpl never.
Arguments Z.mul : simpl never.
Arguments Z.pow : simpl never.

(** Typed operations of at most 65535 bytes, possibly empty. *)
Definition loose (o : op) : Prop := op_typed o /\ op_len o <= 65535.
Lemma loose_oal o : loose o -> oal o = op_len o /\ 0 <= op_len o <= 65535.
Proof.
  intros [H1 H2]. destruct o as [bs|b n|s a n]; cbn [op_typed op_len oal] in *; [|lia|lia]. pose proof (zlen_nonneg bs). rewrite to_u16_id by lia. lia.
Qed.
Lemma ok_loose o : op_ok o -> loose o.
Proof. intros [H1 H2]. split; [exact H1|]. destruct o; cbn [op_legal op_len] in *; lia. Qed.
Lemma loose_all_ok ops : Forall op_ok ops -> Forall loose ops.
Proof. apply Forall_impl. exact ok_loose. Qed.

Lemma skip_loose o k : loose o -> 0 <= k <= op_len o -> exists o', op_skip Release o (to_u32 k) = Ok o' /\ loose o' /\ op_len o' = op_len o - k /\ kind o' = kind o.
Proof.
  intros H Hk. pose proof (loose_oal o H) as [_ Hl]. rewrite to_u32_id by lia. destruct H as [Ht Hlg]. destruct o as [bs|b n|s a n]; cbn [op_len op_skip op_typed] in *.
  - replace (k <=? zlen bs) with true by lia. eexists. split; [reflexivity|]. unfold loose. cbn [op_typed op_len]. rewrite zlen_drop by lia. repeat split; try lia. now apply Forall_drop.
  - rewrite to_u8_id by lia. rewrite arith_ok by (apply to_u8_id; lia). cbn [bind]. eexists. split; [reflexivity|]. unfold loose. cbn [op_typed op_len]. repeat split; try lia; apply Ht.
  - rewrite to_u16_id by lia. rewrite (arith_ok _ to_u16) by (apply to_u16_id; lia). replace (arith Release to_u64 (a + k)) with (Ok (to_u64 (a + k))) by (unfold arith; destruct (to_u64 (a + k) =? a + k) eqn:Eq; [f_equal; lia|reflexivity]). cbn [bind]. eexists. split; [reflexivity|]. unfold loose. cbn [op_typed op_len].
    pose proof (Z.mod_pos_bound (a + k) (2 ^ 64) ltac:(lia)). unfold to_u64. repeat split; try lia; try (destruct s; reflexivity).
Qed.
Lemma trunc_loose o k : loose o -> 0 <= k <= op_len o -> exists o', op_trunc Release o (to_u32 k) = Ok o' /\ loose o' /\ op_len o' = op_len o - k /\ kind o' = kind o.
Proof.
  intros H Hk. pose proof (loose_oal o H) as [_ Hl]. rewrite to_u32_id by lia. destruct H as [Ht Hlg]. destruct o as [bs|b n|s a n]; cbn [op_len op_trunc op_typed] in *.
  - rewrite usub_ok by lia. cbn [bind]. eexists. split; [reflexivity|]. unfold loose. cbn [op_typed op_len]. rewrite zlen_take by lia. repeat split; try lia. now apply Forall_take.
  - rewrite to_u8_id by lia. rewrite arith_ok by (apply to_u8_id; lia). cbn [bind]. eexists. split; [reflexivity|]. unfold loose. cbn [op_typed op_len]. repeat split; try lia; apply Ht.
  - rewrite to_u16_id by lia. rewrite arith_ok by (apply to_u16_id; lia). cbn [bind]. eexists. split; [reflexivity|]. unfold loose. cbn [op_typed op_len]. repeat split; try lia; try (destruct s; reflexivity).
Qed.

Definition looses (l : list sparse) : Prop := Forall (fun x => loose (snd x)) l.
Lemma slen_loose l : looses l -> 0 <= slen l.
Proof. induction 1 as [|x l H _ IH]; [unfold slen; cbn; lia|]. rewrite slen_cons. pose proof (loose_oal _ H). lia. Qed.
Lemma contig_mono_loose l p i j qi oi qj oj : contiguous p l -> looses l ->
  nth_error l i = Some (qi, oi) -> nth_error l j = Some (qj, oj) -> (i < j)%nat -> qi + op_len oi <= qj.
Proof.
  intros Hc Hg Hi Hj Hlt. rewrite (contig_nth _ _ _ _ _ Hc Hi), (contig_nth _ _ _ _ _ Hc Hj).
  assert (E : exists rest, firstn j l = firstn i l ++ (qi, oi) :: rest /\ looses rest).
  { apply nth_error_split in Hi as (l1 & l2 & -> & <-). exists (firstn (j - length l1 - 1) l2).
    rewrite !firstn_app. rewrite (firstn_all2 l1) by lia. rewrite firstn_all, Nat.sub_diag, firstn_O, app_nil_r.
    replace (j - length l1)%nat with (S (j - length l1 - 1)) by lia. cbn [firstn]. replace (S (j - length l1 - 1) - 1)%nat with (j - length l1 - 1)%nat by lia. split; [reflexivity|].
    apply Forall_firstn. apply Forall_app in Hg as [_ Hg]. now inversion Hg. }
  destruct E as (rest & -> & Hr). rewrite slen_app, slen_cons. cbn [snd]. pose proof (slen_loose _ Hr). lia.
Qed.
Lemma binary_search_loose l p pos : contiguous p l -> looses l -> forall fuel left size,
  (Z.to_nat size < fuel)%nat -> 0 <= left -> 0 <= size -> left + size <= zlen l ->
  (forall i q o, nth_error l i = Some (q, o) -> Z.of_nat i < left -> q + op_len o <= pos) ->
  (forall i q o, nth_error l i = Some (q, o) -> left + size <= Z.of_nat i -> pos < q) ->
  exists r, binary_search fuel (probe_cmp pos) l left size = Ok r /\
    match r with
    | Some i => exists q o, 0 <= i /\ nth_error l (Z.to_nat i) = Some (q, o) /\ q <= pos < q + op_len o
    | None => forall q o, In (q, o) l -> ~ (q <= pos < q + op_len o)
    end.
Proof.
  intros Hc Hg. induction fuel as [|k IH]; intros left size Hf Hl Hs Hz HL HR; [lia|]. cbn [binary_search].
  destruct (size <=? 0) eqn:Es.
  - eexists. split; [reflexivity|]. intros q o Hin. apply In_nth_error in Hin as (i & Hi).
    destruct (Z.ltb_spec (Z.of_nat i) left); [specialize (HL _ _ _ Hi); lia|specialize (HR _ _ _ Hi); lia].
  - assert (Hh : 0 <= size / 2 < size) by (split; [apply Z.div_pos; lia|apply Z.div_lt_upper_bound; lia]).
    destruct (idx_ok l (left + size / 2) ltac:(lia)) as ([q o] & -> & Hn). cbn [bind].
    assert (Hgo : loose o) by (unfold looses in Hg; eapply Forall_forall in Hg; [|eapply nth_error_In; exact Hn]; exact Hg).
    pose proof (loose_oal o Hgo) as [Eo Hol]. unfold probe_cmp at 1. cbn [fst snd]. rewrite Eo.
    destruct ((q <=? pos) && (pos <? q + op_len o)) eqn:E1.
    + eexists. split; [reflexivity|]. exists q, o. split; [lia|]. split; [exact Hn|lia].
    + destruct (q >? pos) eqn:E2.
      * apply IH; try lia; [exact HL|]. intros i q' o' Hi Hge. destruct (Z.eq_dec (Z.of_nat i) (left + size / 2)) as [e|ne].
        -- replace i with (Z.to_nat (left + size / 2)) in Hi by lia. rewrite Hn in Hi. injection Hi as <- <-. lia.
        -- pose proof (contig_mono_loose _ _ _ _ _ _ _ _ Hc Hg Hn Hi ltac:(lia)). lia.
      * apply IH; [lia|lia|lia|lia| |intros i q' o' Hi Hge; apply (HR i q' o' Hi); lia].
        intros i q' o' Hi Hlt. destruct (Z.eq_dec (Z.of_nat i) (left + size / 2)) as [e|ne].
        -- replace i with (Z.to_nat (left + size / 2)) in Hi by lia. rewrite Hn in Hi. injection Hi as <- <-. lia.
        -- pose proof (contig_mono_loose _ _ _ _ _ _ _ _ Hc Hg Hi Hn ltac:(lia)). lia.
Qed.
Lemma find_controlling_loose l p pos : contiguous p l -> looses l ->
  exists r, find_controlling_op l pos = Ok r /\
    match r with
    | Some i => exists q o, 0 <= i /\ nth_error l (Z.to_nat i) = Some (q, o) /\ q <= pos < q + op_len o
    | None => forall q o, In (q, o) l -> ~ (q <= pos < q + op_len o)
    end.
Proof.
  intros Hc Hg. pose proof (zlen_nonneg l). apply (binary_search_loose l p); auto; try lia.
  - unfold zlen; lia.
  - intros i q o Hi Hge. assert (nth_error l i <> None) by congruence. apply nth_error_Some in H0. unfold zlen in Hge. lia.
Qed.
Lemma contig_covers_loose l : forall p pos, contiguous p l -> p <= pos < p + slen l -> exists q o, In (q, o) l /\ q <= pos < q + op_len o.
Proof.
  induction l as [|[q o] l IH]; intros p pos Hc Hp; [unfold slen in Hp; cbn in Hp; lia|]. destruct Hc as [-> Hc]. rewrite slen_cons in Hp. cbn [snd] in Hp.
  destruct (Z.ltb_spec pos (p + op_len o)); [exists p, o; split; [now left|lia]|].
  destruct (IH _ pos Hc) as (q' & o' & Hin & Hr); [lia|]. exists q', o'. split; [now right|exact Hr].
Qed.

Lemma exact_loop_loose start end_pos : start <= end_pos -> forall l q, contiguous q l -> looses l -> q <= end_pos -> (q < end_pos \/ l <> []) ->
  start <= q + match l with [] => 0 | x :: _ => op_len (snd x) end \/ l = [] ->
  if q + slen l <? end_pos then exact_loop Release start end_pos l = Ok None
  else exists r, exact_loop Release start end_pos l = Ok (Some r) /\ contiguous (Z.max start q) r /\ looses r /\
    slen r = end_pos - Z.max start q /\ kinds_in l r /\ r <> [] /\ zlen r <= zlen l /\ (start < end_pos -> q < end_pos ->
      start < q + match l with [] => 1 | x :: _ => op_len (snd x) end -> Forall (fun x => 1 <= op_len (snd x)) l -> Forall (fun x => 1 <= op_len (snd x)) r).
Proof.
  intro Hse. induction l as [|[q0 o] l IH]; intros q Hc Hp Hq Hne Hh.
  - unfold slen. cbn [map ops_len fold_right exact_loop]. destruct Hne as [Hne|Hne]; [|congruence]. replace (q + 0 <? end_pos) with true by lia. reflexivity.
  - destruct Hc as [-> Hc]. inversion Hp as [|? ? H1 H2]; subst. cbn [fst snd] in *. rewrite slen_cons. cbn [snd]. destruct Hh as [Hh|Hh]; [|discriminate].
    pose proof (loose_oal o H1) as [Eo Hol]. cbn [exact_loop]. rewrite Eo.
    assert (S1 : exists o1, (if start >? q then do c <- op_skip Release o (to_u32 (start - q)); Ok (start, c) else Ok (q, o)) = Ok (Z.max start q, o1) /\
       loose o1 /\ op_len o1 = op_len o - (Z.max start q - q) /\ kind o1 = kind o).
    { destruct (start >? q) eqn:E.
      - destruct (skip_loose o (start - q) H1 ltac:(lia)) as (o1 & -> & P1 & P2 & P3). cbn [bind]. exists o1. replace (Z.max start q) with start by lia. auto.
      - exists o. replace (Z.max start q) with q by lia. repeat split; auto; try lia; apply H1. }
    destruct S1 as (o1 & -> & P1 & L1 & K1). cbn [bind]. pose proof (slen_loose _ H2) as Hsl.
    assert (S2 : exists o2, (if end_pos <? q + op_len o then op_trunc Release o1 (to_u32 (q + op_len o - end_pos)) else Ok o1) = Ok o2 /\
       loose o2 /\ op_len o2 = Z.min end_pos (q + op_len o) - Z.max start q /\ kind o2 = kind o).
    { destruct (end_pos <? q + op_len o) eqn:E.
      - destruct (trunc_loose o1 (q + op_len o - end_pos) P1 ltac:(lia)) as (o2 & -> & P2 & L2 & K2). exists o2. repeat split; try (apply P2); try lia; congruence.
      - exists o1. repeat split; try (apply P1); try lia; congruence. }
    destruct S2 as (o2 & -> & P2 & L2 & K2). cbn [bind debug_assert_].
    destruct (q + op_len o >=? end_pos) eqn:E.
    + replace (q + (op_len o + slen l) <? end_pos) with false by lia. eexists. split; [reflexivity|]. split; [cbn; auto|].
      split; [constructor; [exact P2|constructor]|]. split; [|split; [|split; [discriminate|split]]].
      * unfold slen. cbn [map ops_len fold_right snd]. lia.
      * intros x [<-|[]]. exists (q, o). split; [now left|]. cbn. congruence.
      * rewrite !zlen_cons. pose proof (zlen_nonneg l). rewrite zlen_nil. lia.
      * intros S1 S2 S3 _. constructor; [cbn [snd]; lia|constructor].
    + assert (HI := IH (q + op_len o) Hc H2 ltac:(lia) ltac:(lia)). rewrite Z.add_assoc.
      assert (Hd : start <= q + op_len o + match l with [] => 0 | x :: _ => op_len (snd x) end \/ l = []).
      { destruct l as [|x l]; [now right|left]. inversion H2 as [|? ? G1 _]; subst. pose proof (loose_oal _ G1). lia. }
      specialize (HI Hd). destruct (q + op_len o + slen l <? end_pos) eqn:E2.
      * rewrite HI. reflexivity.
      * destruct HI as (r & -> & C & P & L & K & N & ZL & NE).
        cbn [bind]. eexists. split; [reflexivity|]. replace (Z.max start (q + op_len o)) with (q + op_len o) in C, L by lia.
        split; [|split; [constructor; assumption|split; [|split; [|split; [discriminate|split]]]]].
        -- cbn [contiguous]. split; [reflexivity|]. replace (Z.max start q + op_len o2) with (q + op_len o) by lia. exact C.
        -- rewrite slen_cons. cbn [snd]. lia.
        -- intros x [<-|Hin]; [exists (q, o); split; [now left|cbn; congruence]|]. destruct (K x Hin) as (y & Hy & Ey). exists y. split; [now right|exact Ey].
        -- rewrite !zlen_cons. lia.
        -- intros S1 S2 S3 HF. inversion HF as [|? ? F1 F2]; subst. cbn [snd] in *. constructor; [cbn [snd]; lia|]. apply NE; try lia; [|exact F2]. destruct l as [|x l]; [lia|]. inversion F2 as [|? ? F3 F4]; subst. lia.
Qed.
(** get_exact_slice succeeds exactly when the range starts inside the operations and ends there or at their end. *)
Lemma exact_slice_loose l start len : contiguous 0 l -> looses l -> 0 <= start -> 0 <= len ->
  if (start <? slen l) && (start + len <=? slen l) then exists r, get_exact_slice Release l start len = Ok (Some r) /\ contiguous start r /\ looses r /\ slen r = len /\ kinds_in l r /\ r <> [] /\ zlen r <= zlen l /\
    (1 <= len -> Forall (fun x => 1 <= op_len (snd x)) l -> Forall (fun x => 1 <= op_len (snd x)) r)
  else get_exact_slice Release l start len = Ok None.
Proof.
  intros Hc Hg Hs Hl. unfold get_exact_slice. destruct (find_controlling_loose l 0 start Hc Hg) as (r & -> & Hr). cbn [bind]. destruct r as [i|].
  - destruct Hr as (q & o & Hi & Hn & Hq). pose proof (drop_nth _ _ _ Hi Hn) as Ed.
    assert (El : l = firstn (Z.to_nat i) l ++ @cons sparse (q, o) (drop (i + 1) l)) by (etransitivity; [symmetry; apply (firstn_skipn (Z.to_nat i))|]; f_equal; exact Ed). rewrite Ed.
    set (tl := drop (i + 1) l) in *. pose proof (contig_nth _ _ _ _ _ Hc Hn) as Eq. rewrite El in Hc, Hg. apply contig_app in Hc as [_ Hc]. apply Forall_app in Hg as [_ Hp].
    rewrite <- Eq in Hc. assert (Esl : slen l = q + slen ((q, o) :: tl)) by (rewrite El, slen_app; lia).
    assert (Hsl : 0 <= slen tl) by (apply slen_loose; now inversion Hp).
    pose proof (exact_loop_loose start (start + len) ltac:(lia) _ q Hc Hp ltac:(lia) ltac:(right; discriminate)) as HE. cbn [snd] in HE. specialize (HE ltac:(left; lia)).
    rewrite Esl. replace (start <? q + slen ((q, o) :: tl)) with true by (rewrite slen_cons; cbn [snd]; lia). cbn [andb]. destruct (start + len <=? q + slen ((q, o) :: tl)) eqn:E.
    + replace (q + slen ((q, o) :: tl) <? start + len) with false in HE by lia. destruct HE as (r & -> & C & P & L & K & N & ZL & NE).
      replace (Z.max start q) with start in * by lia. exists r. split; [reflexivity|]. split; [exact C|]. split; [exact P|]. split; [lia|]. split; [|split; [exact N|split]].
      * intros x Hx. destruct (K x Hx) as (y & Hy & Ey). exists y. split; [|exact Ey]. rewrite El. apply in_or_app. now right.
      * rewrite El, zlen_app. pose proof (zlen_nonneg (firstn (Z.to_nat i) l)). lia.
      * intros H1 HF. rewrite El in HF. apply Forall_app in HF as [_ HF]. apply NE; try lia. exact HF.
    + now replace (q + slen ((q, o) :: tl) <? start + len) with true in HE by lia.
  - destruct (start <? slen l) eqn:E; [|reflexivity]. exfalso.
    destruct (contig_covers_loose l 0 start Hc ltac:(lia)) as (q & o & Hin & Hr'). exact (Hr _ _ Hin Hr').
Qed.

(** ** deref_copy_o *)
Lemma place_loose : forall l p, looses l -> place l p = (number p (map snd l), p + slen l).
Proof.
  induction l as [|[q o] l IH]; intros p Hg; cbn [place map snd number].
  - unfold slen. cbn. now rewrite Z.add_0_r.
  - inversion Hg as [|? ? H1 H2]; subst. destruct (loose_oal _ H1) as [E _]. cbn [snd] in *. rewrite E. rewrite IH by exact H2. rewrite slen_cons. cbn [snd]. now rewrite Z.add_assoc.
Qed.
Lemma looses_number ops p : Forall loose ops -> looses (number p ops).
Proof. unfold looses. revert p. induction ops as [|o ops IH]; intros p H; cbn [number]; [constructor|]. inversion H; subst. constructor; [assumption|now apply IH]. Qed.
Lemma looses_ops l : looses l <-> Forall loose (map snd l).
Proof. unfold looses. now rewrite Forall_map. Qed.
Definition non_empties (l : list sparse) : Prop := Forall (fun x => 1 <= op_len (snd x)) l.
Lemma non_empties_number ops p : Forall (fun o => 1 <= op_len o) ops <-> non_empties (number p ops).
Proof. unfold non_empties. rewrite <- (Forall_map snd (fun o => 1 <= op_len o)), number_snd. tauto. Qed.

Lemma deref_loop_loose : forall ext output, looses ext -> contiguous 0 output -> looses output ->
  if out_fit (slen output) (map snd ext) then
    exists r, deref_loop Release ext output (slen output) = Ok r /\ contiguous 0 r /\ looses r /\ slen r = slen output + slen ext /\ (non_empties output -> non_empties ext -> non_empties r) /\
      (no_out output -> no_out r)
  else deref_loop Release ext output (slen output) = Panic.
Proof.
  induction ext as [|[q o] ext IH]; intros output Hx Hc Ho; cbn [deref_loop map snd out_fit].
  - exists output. repeat split; auto. unfold slen at 3. cbn. lia.
  - inversion Hx as [|? ? H1 H2]; subst. cbn [snd] in *. pose proof (loose_oal _ H1) as [_ Hl]. pose proof (slen_loose _ Ho) as Hs0.
    assert (K : forall res, looses res -> slen res = op_len o -> (non_empties output -> 1 <= op_len o -> non_empties res) -> (no_out output -> no_out res) ->
      if out_fit (slen output + op_len o) (map snd ext) then
        exists r, (let '(l, pos) := place res (slen output) in deref_loop Release ext (output ++ l) pos) = Ok r /\ contiguous 0 r /\ looses r /\ slen r = slen output + slen ((q, o) :: ext) /\ (non_empties output -> non_empties ((q, o) :: ext) -> non_empties r) /\
          (no_out output -> no_out r)
      else (let '(l, pos) := place res (slen output) in deref_loop Release ext (output ++ l) pos) = Panic).
    { intros res Hres Hlen Hne Hno. rewrite place_loose by exact Hres.
      assert (Esl : slen output + slen res = slen (output ++ number (slen output) (map snd res))) by (rewrite slen_app, slen_number; reflexivity).
      assert (C' : contiguous 0 (output ++ number (slen output) (map snd res))) by (apply contig_app; split; [exact Hc|apply number_contig]).
      assert (L' : looses (output ++ number (slen output) (map snd res))) by (apply Forall_app; split; [exact Ho|apply looses_number; now apply looses_ops]).
      specialize (IH _ H2 C' L'). rewrite <- Esl, Hlen in *. destruct (out_fit (slen output + op_len o) (map snd ext)); [|exact IH].
      destruct IH as (r & E & C & P & L & N & O). exists r. split; [exact E|]. split; [exact C|]. split; [exact P|]. split; [rewrite L, slen_cons; cbn [snd]; lia|]. split.
      - intros N1 N2. inversion N2 as [|? ? N3 N4]; subst. apply N; [|exact N4]. apply Forall_app. split; [exact N1|]. apply non_empties_number. specialize (Hne N1 N3). unfold non_empties in Hne. now rewrite Forall_map.
      - intro N1. apply O. apply Forall_app. split; [exact N1|]. apply no_out_number, no_out_ops. now apply Hno. }
    destruct o as [bs|b n|s a n]; [| |destruct s].
    1,2,3: cbn [bind andb]; apply K; [constructor; [exact H1|constructor]|unfold slen; cbn; lia|intros _ N; constructor; [exact N|constructor]|intros _; constructor; [reflexivity|constructor]].
    destruct H1 as [Ht Hlg]. cbn [op_typed op_len] in *. pose proof (exact_slice_loose output a n Hc Ho ltac:(lia) ltac:(lia)) as HE.
    destruct ((a <? slen output) && (a + n <=? slen output)); [|rewrite HE; reflexivity].
    destruct HE as (r & -> & C & P & L & Kd & N & ZL & NE). cbn [bind andb]. apply K; [exact P|exact L| |].
    + intros N1 N2. apply NE; assumption.
    + intro N1. exact (no_out_kinds _ _ Kd N1).
Qed.
Lemma deref_loose ops : Forall loose ops ->
  if out_fit 0 ops then exists r, deref_copy_o Release (number 0 ops) = Ok r /\ contiguous 0 r /\ looses r /\ slen r = ops_len ops /\ (Forall (fun o => 1 <= op_len o) ops -> non_empties r) /\ no_out r
  else deref_copy_o Release (number 0 ops) = Panic.
Proof.
  intro H. pose proof (deref_loop_loose (number 0 ops) [] (looses_number _ _ H) I ltac:(constructor)) as D. rewrite number_snd in D. unfold deref_copy_o. change (slen []) with 0 in D.
  destruct (out_fit 0 ops); [|exact D]. destruct D as (r & E & C & P & L & N & O). exists r. split; [exact E|]. split; [exact C|]. split; [exact P|]. rewrite slen_number in L. split; [lia|].
  split; [intro N1; apply N; [constructor|now apply non_empties_number]|apply O; constructor].
Qed.

(** ** merge *)
Lemma merge_loop_loose T P : contiguous 0 P -> looses P -> zlen P < 2 ^ 64 -> forall t2 t1 shift, T = t1 ++ t2 -> contiguous (slen t1) t2 -> looses t2 ->
  if dict_fits (slen P) (map snd t2) then
    exists ix ins, merge_loop Release T P (find_mergeable t2 (zlen t1)) shift = Ok (ix, ins) /\ keys_from (zlen t1) ins /\
      let e := expand_loop t2 ins (zlen t1) (slen t1) in contiguous (slen t1) e /\ looses e /\ slen e = slen t2 /\ ix = find_mergeable e (zlen t1 + shift)
  else merge_loop Release T P (find_mergeable t2 (zlen t1)) shift = Panic.
Proof.
  intros Hc Hp HzP. induction t2 as [|[q o] t2 IH]; intros t1 shift ET Hc2 Hp2.
  - exists [], []. cbn. repeat split; constructor.
  - destruct Hc2 as [-> Hc2]. inversion Hp2 as [|? ? H1 H2]; subst. cbn [snd] in *. pose proof (loose_oal _ H1) as [Eo Hl].
    assert (Esl : slen (t1 ++ [(slen t1, o)]) = slen t1 + op_len o) by (rewrite slen_app; unfold slen at 2; cbn; lia).
    assert (Ezl : zlen (t1 ++ [(slen t1, o)]) = zlen t1 + 1) by (rewrite zlen_app; reflexivity).
    rewrite <- Esl in Hc2. cbn [find_mergeable map snd dict_fits forallb]. fold (dict_fits (slen P) (map snd t2)). destruct (is_dict_copy o) eqn:Ed.
    + destruct o as [|?|[] a n]; try discriminate. cbn [app merge_loop].
      assert (Ei : idx (t1 ++ (slen t1, Copy Dict a n) :: t2) (zlen t1) = Ok (slen t1, Copy Dict a n)).
      { unfold idx. pose proof (zlen_nonneg t1). replace (zlen t1 <? 0) with false by lia. unfold zlen. rewrite Nat2Z.id. rewrite nth_error_app2 by lia. now rewrite Nat.sub_diag. }
      rewrite Ei. cbn [bind snd debug_assert_].
      destruct H1 as [Ht Hlg]. cbn [op_typed op_len] in *. pose proof (exact_slice_loose P a n Hc Hp ltac:(lia) ltac:(lia)) as HE.
      destruct ((a <? slen P) && (a + n <=? slen P)); [|rewrite HE; reflexivity]. cbn [andb].
      destruct HE as (r & -> & C & Pr & L & K & N & ZL & _). cbn [bind].
      assert (Hr1 : 1 <= zlen r) by (destruct r; [contradiction|rewrite zlen_cons; pose proof (zlen_nonneg r); lia]).
      rewrite usub_ok by lia. cbn [bind].
      assert (ET' : t1 ++ (slen t1, Copy Dict a n) :: t2 = (t1 ++ [(slen t1, Copy Dict a n)]) ++ t2) by (rewrite <- app_assoc; reflexivity).
      specialize (IH (t1 ++ [(slen t1, Copy Dict a n)]) (shift + (zlen r - 1)) ET' Hc2 H2). rewrite Ezl in *. destruct (dict_fits (slen P) (map snd t2)); [|rewrite IH; reflexivity].
      destruct IH as (ix & ins & E1 & Hk & C1 & P1 & L1 & X1). rewrite E1. cbn [bind]. eexists; eexists. split; [reflexivity|]. split; [cbn [keys_from fst]; split; [lia|exact Hk]|].
      cbv zeta. cbn [expand_loop]. rewrite Z.sub_diag. rewrite (take_0 0), (drop_0 0) by lia. cbn [place]. rewrite place_loose by exact Pr. rewrite L.
      cbn [app]. rewrite (@zlen_nil (Z * op)). replace (zlen t1 + 0 + 1) with (zlen t1 + 1) by lia. change (drop 1 ((slen t1, Copy Dict a n) :: t2)) with t2.
      rewrite Esl in *. cbn [op_len] in *. set (e := expand_loop t2 ins (zlen t1 + 1) (slen t1 + n)) in *. split; [|split; [|split]].
      * apply contig_app. split; [apply number_contig|]. rewrite slen_number. fold (slen r). rewrite L. exact C1.
      * apply Forall_app. split; [apply looses_number; now apply looses_ops|exact P1].
      * rewrite slen_app, slen_number, slen_cons. fold (slen r). cbn [snd op_len]. lia.
      * rewrite find_mergeable_app. f_equal; [apply find_mergeable_ops; now rewrite number_snd|]. rewrite X1. f_equal.
        assert (zlen (number (slen t1) (map snd r)) = zlen r) by (rewrite <- (zlen_map snd (number _ _)), number_snd, zlen_map; reflexivity). lia.
    + assert (ET' : t1 ++ (slen t1, o) :: t2 = (t1 ++ [(slen t1, o)]) ++ t2) by (rewrite <- app_assoc; reflexivity).
      specialize (IH (t1 ++ [(slen t1, o)]) shift ET' Hc2 H2). rewrite Ezl in *. cbn [app].
      replace (match o with Copy Dict a k => (a <? slen P) && (a + k <=? slen P) | _ => true end) with true by (destruct o as [|?|[]]; auto; discriminate). cbn [andb].
      destruct (dict_fits (slen P) (map snd t2)); [|exact IH]. destruct IH as (ix & ins & E1 & Hk & C1 & P1 & L1 & X1). rewrite E1. exists ix, ins.
      split; [reflexivity|]. split; [eapply keys_from_le; [|exact Hk]; lia|].
      cbv zeta. rewrite expand_cons by exact Hk. rewrite Eo, <- Esl. set (e := expand_loop t2 ins (zlen t1 + 1) (slen (t1 ++ [(slen t1, o)]))) in *. split; [|split; [|split]].
      * cbn [contiguous]. split; [reflexivity|]. rewrite <- Esl. exact C1.
      * constructor; [exact H1|exact P1].
      * rewrite !slen_cons. cbn [snd]. lia.
      * cbn [find_mergeable]. rewrite Ed. cbn [app]. rewrite X1. f_equal. lia.
Qed.
