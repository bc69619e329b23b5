(** Searching the target for a repeat. Property C105. *)
From Verif Require Import Base Spec SpecEnc MCommon MHasher MHashmap MTrgtMatcher MSrcMatcher MEncInner MEncode MLevels SpecApi PBase PHasher PHashmap PEncInner PTotal TMiss.
From Coq Require Import Sorted.
Ltac Zify.zify_post_hook ::= idtac.
Arguments Z.add : simpl never.
Arguments Z.sub : simpl never.
Arguments Z.mul : simpl never.
Arguments Z.pow : simpl never.
Arguments Z.div : simpl never.
Arguments Z.modulo : simpl never.

(** ** Specification *)
(** The longest common prefix of what is before [cur] from [p] on, and what follows [cur]: the length of the match at [p]. *)
Definition match_at (trgt : list Z) (cur p : Z) : Z := let n := Z.min (cur - p) (zlen trgt - cur) in lcp (sub trgt p n) (sub trgt cur n).
(** The first of the longest. *)
Fixpoint longest (best : option (Z * Z)) (l : list (Z * Z)) : option (Z * Z) :=
  match l with
  | [] => best
  | (p, n) :: r => longest (match best with Some (_, b) => if b <? n then Some (p, n) else best | None => Some (p, n) end) r
  end.
(** What the settings ask for: the first match of at least [early] bytes, otherwise the first of the longest ones. *)
Definition choose (early : Z) (l : list (Z * Z)) : option (Z * Z) :=
  match find (fun c => early <=? snd c) l with Some c => Some c | None => longest None l end.
(** Positions (newest first) at which the four bytes at [cur] are found again, not touching them. *)
Definition repeats (trgt : list Z) (cur : Z) (l : list Z) : list Z :=
  filter (fun p => (p + 4 <? cur) && list_eqb (sub trgt p 4) (sub trgt cur 4)) l.
(** Storing (checksum, position) entries, oldest first, as the encoder moves on. *)
Fixpoint stores (t : trgt_matcher) (l : list (Z * Z)) : res trgt_matcher :=
  match l with [] => Ok t | (h, p) :: r => do t <- trgt_store t h p; stores t r end.
(** Positions (newest first) still filed under the checksum [h] when searching at [cur]: the newest one, and of the others those less than the capacity of the chain table back. *)
Definition filed (cap cur h : Z) (newest_first : list (Z * Z)) : list Z :=
  match filter (fun e => fst e =? h) newest_first with
  | [] => []
  | e :: r => snd e :: map snd (filter (fun e => cur - snd e <? cap) r)
  end.
(** Strictly increasing positions, all before [cur]; checksums of 32 bits. *)
Definition entries_ok (cur : Z) (l : list (Z * Z)) : Prop := StronglySorted (fun a b => snd a < snd b) l /\ Forall (fun e => 0 <= fst e < 2 ^ 32 /\ 0 <= snd e < cur) l.

(** ** The index *)
Definition older (a b : Z * Z) : Prop := snd b < snd a.
Record index_ok (t : trgt_matcher) (B : Z) (H : list (Z * Z)) : Prop := mkIX {
  ix_table : table_good 32 (tm_table t);
  ix_holds : holds (tm_table t) H;
  ix_chain : chain_ok B (tm_chain t);
  ix_sorted : StronglySorted older H;
  ix_pos : forall e, In e H -> 0 <= snd e < B;
  ix_link : forall pre hk key post, H = pre ++ (hk, key) :: post -> B - key <= ch_cap (tm_chain t) ->
    let b := ch_pos (tm_chain t) (Z.land key (ch_mask (tm_chain t))) in
    match find (at_bucket (tm_table t) (bucket_idx (tm_table t) hk)) post with
    | Some (hq, q) => b = mkBucket hq (q + 1)
    | None => b_value b = 0 \/ b_value b - 1 + ch_cap (tm_chain t) < key
    end
}.
Lemma at_bucket_same t t' i : (forall x, bucket_idx t' x = bucket_idx t x) -> forall l, find (at_bucket t' i) l = find (at_bucket t i) l.
Proof. intros H l. induction l as [|x l IH]; [reflexivity|]. cbn [find]. unfold at_bucket at 1 3. rewrite H, IH. reflexivity. Qed.
Lemma store_ok t B H h p : index_ok t B H -> 0 <= B <= p -> 0 <= h < 2 ^ 32 ->
  exists t', trgt_store t h p = Ok t' /\ index_ok t' (p + 1) ((h, p) :: H) /\ tm_early t' = tm_early t /\ tm_chain_check t' = tm_chain_check t /\ ch_cap (tm_chain t') = ch_cap (tm_chain t).
Proof.
  intros [T Ho C So Po L] HB Hh. unfold trgt_store.
  destruct (table_insert_ok 32 (tm_table t) H h p T Ho Hh) as (tb & r & E & G1 & G2 & G3 & G4). rewrite E. cbn [bind].
  set (bk := t_buckets (tm_table t) (bucket_idx (tm_table t) h)) in *. pose proof (Ho (bucket_idx (tm_table t) h)) as Hb. fold bk in Hb.
  assert (So' : StronglySorted older ((h, p) :: H)).
  { constructor; [exact So|]. apply Forall_forall. intros e He. unfold older. cbn [snd]. specialize (Po e He). lia. }
  assert (Po' : forall e, In e ((h, p) :: H) -> 0 <= snd e < p + 1) by (intros e [<-|He]; [cbn [snd]; lia|specialize (Po e He); lia]).
  destruct (find (at_bucket (tm_table t) (bucket_idx (tm_table t) h)) H) as [[hq q]|] eqn:Ef.
  - (* something was in the bucket *)
    assert (Hin : In (hq, q) H) by (apply find_some in Ef; apply Ef). pose proof (Po _ Hin) as Hq. cbn [snd] in Hq.
    assert (Er : match r with SetNew => False | SetSame o => o = q /\ hq = h | SetEvicted oh o => oh = hq /\ o = q end).
    { subst r. rewrite Hb. unfold bucket_set. cbn [b_value b_hash]. replace (q + 1 =? 0) with false by lia. destruct (hq =? h) eqn:Eh; cbn [snd]; lia. }
    assert (Ec : exists c', match r with SetNew => Ok (tm_chain t) | SetSame prev => chain_insert (tm_chain t) h p prev | SetEvicted old_hash prev => chain_insert (tm_chain t) old_hash p prev end = Ok c' /\
               chain_insert (tm_chain t) hq p q = Ok c' /\ chain_ok (p + 1) c').
    { destruct (chain_insert_total p (tm_chain t) hq q (chain_ok_mono B p _ ltac:(lia) C) ltac:(lia)) as (c' & Ei & Ci). exists c'. destruct r as [|o|oh o]; [contradiction| |]; destruct Er as [-> ->]; auto. }
    destruct Ec as (c' & -> & Ei & Ci). cbn [bind]. eexists. split; [reflexivity|]. cbn [tm_early tm_chain_check tm_chain tm_table].
    assert (Ecap : ch_cap c' = ch_cap (tm_chain t) /\ ch_mask c' = ch_mask (tm_chain t) /\
      (ch_cap c' = 0 \/ forall i, ch_pos c' i = if i =? Z.land p (ch_mask (tm_chain t)) then mkBucket hq (q + 1) else ch_pos (tm_chain t) i)).
    { unfold chain_insert in Ei. destruct (ch_cap (tm_chain t) =? 0) eqn:E0; [injection Ei as <-; split; [reflexivity|split; [reflexivity|left; lia]]|].
      destruct (_ && _); [|discriminate]. injection Ei as <-. cbn [ch_cap ch_mask ch_pos]. split; [reflexivity|split; [reflexivity|right]]. intro i. unfold upd. destruct (i =? _); [apply bucket_set_fst|reflexivity]. }
    destruct Ecap as (K1 & K2 & K3). split; [|auto]. constructor; cbn [tm_table tm_chain]; auto.
    intros pre hk key post EH Hk. cbv zeta. rewrite K1, K2 in *. rewrite G3, (at_bucket_same _ _ _ G3).
    destruct K3 as [K3|K3].
    { (* no chain *) assert (In (hk, key) ((h, p) :: H)) as Hi by (rewrite EH; apply in_elt). specialize (Po' _ Hi). cbn [snd] in Po'. lia. }
    rewrite K3. destruct pre as [|x pre]; cbn [app] in EH.
    + injection EH as ? ? ?; subst hk key post. rewrite Z.eqb_refl. rewrite Ef. reflexivity.
    + injection EH as <- EH. assert (Hi : In (hk, key) H) by (rewrite EH; apply in_elt). pose proof (Po _ Hi) as Hkb. cbn [snd] in Hkb.
      replace (Z.land key (ch_mask (tm_chain t)) =? Z.land p (ch_mask (tm_chain t))) with false; [exact (L _ _ _ _ EH ltac:(lia))|].
      symmetry. apply Z.eqb_neq. destruct C as [[C|(k & Hk0 & C1 & C2)] _]; [lia|]. rewrite C2, !land_mask by exact Hk0. intro Heq. pose proof (congr_gap p key k Hk0 (eq_sym Heq) ltac:(lia)). lia.
  - (* an empty bucket *)
    assert (Er : r = SetNew) by (subst r; rewrite Hb; reflexivity). rewrite Er. cbn [bind]. eexists. split; [reflexivity|]. cbn [tm_early tm_chain_check tm_chain tm_table]. split; [|auto].
    constructor; cbn [tm_table tm_chain]; auto; [apply (chain_ok_mono B); [lia|exact C]|].
    intros pre hk key post EH Hk. cbv zeta. rewrite G3, (at_bucket_same _ _ _ G3). destruct pre as [|x pre]; cbn [app] in EH.
    + injection EH as ? ? ?; subst hk key post. rewrite Ef. destruct (Z.eq_dec (b_value (ch_pos (tm_chain t) (Z.land p (ch_mask (tm_chain t))))) 0) as [H0|H0]; [left; exact H0|right].
      destruct C as [Cc Cb]. destruct (Cb _ H0) as (key & K1 & K2 & K3). destruct Cc as [C|(k & Hk0 & C1 & C2)]; [lia|]. rewrite C2, !land_mask in K3 by exact Hk0.
      pose proof (congr_gap p key k Hk0 (eq_sym K3) ltac:(lia)). lia.
    + injection EH as <- EH. exact (L _ _ _ _ EH ltac:(lia)).
Qed.

(** The chain of a hash: from an entry in its bucket, the next older one with the same hash, unless it is too far back. *)
Lemma find_split {A} (f : A -> bool) l : match find f l with Some e => exists a b, l = a ++ e :: b /\ f e = true /\ (forall x, In x a -> f x = false) | None => forall x, In x l -> f x = false end.
Proof.
  induction l as [|x l IH]; cbn [find]; [intros ? []|]. destruct (f x) eqn:E.
  - exists [], l. split; [reflexivity|]. split; [exact E|intros ? []].
  - destruct (find f l) as [e|].
    + destruct IH as (a & b & -> & H1 & H2). exists (x :: a), b. split; [reflexivity|]. split; [exact H1|]. intros y [<-|Hy]; auto.
    + intros y [<-|Hy]; auto.
Qed.
Lemma find_none_all {A} (f : A -> bool) l : (forall x, In x l -> f x = false) -> find f l = None.
Proof. intro H. destruct (find f l) eqn:E; [|reflexivity]. apply find_some in E as [Hi He]. rewrite (H _ Hi) in He. discriminate. Qed.
Lemma sorted_older pre e post : StronglySorted older (pre ++ e :: post) -> forall x, In x post -> snd x < snd e.
Proof.
  induction pre as [|y pre IH]; cbn [app]; intro H.
  - apply StronglySorted_inv in H as [_ H]. rewrite Forall_forall in H. exact H.
  - apply StronglySorted_inv in H as [H _]. auto.
Qed.
Lemma chain_exact m t B H cur h : index_ok t B H -> B <= cur < 2 ^ 64 -> forall fuel pre hk key post, H = pre ++ (hk, key) :: post -> bucket_idx (tm_table t) hk = bucket_idx (tm_table t) h -> (Z.to_nat key < fuel)%nat ->
  exists r, chain_next_loop fuel m (tm_chain t) key cur h = Ok r /\
    r = match find (fun e => (fst e =? h) && (cur - snd e <? ch_cap (tm_chain t))) post with Some e => Some (snd e) | None => None end.
Proof.
  intros [T Ho C So Po L] Hc. induction fuel as [|fuel IH]; intros pre hk key post EH Hbk Hf; [lia|]. cbn [chain_next_loop].
  assert (Hk : 0 <= key < B) by (apply (Po (hk, key)); rewrite EH; apply in_elt).
  assert (Hpost : forall x, In x post -> 0 <= snd x < key) by (intros x Hx; split; [apply Po; rewrite EH; apply in_or_app; right; right; exact Hx|rewrite EH in So; exact (sorted_older _ _ _ So x Hx)]).
  assert (Hfar : ch_cap (tm_chain t) <= cur - key -> find (fun e => (fst e =? h) && (cur - snd e <? ch_cap (tm_chain t))) post = None).
  { intro Hd. destruct (find _ post) as [e|] eqn:E; [|reflexivity]. apply find_some in E as [Hi He]. specialize (Hpost e Hi). lia. }
  destruct (ch_cap (tm_chain t) =? 0) eqn:E0.
  { eexists. split; [reflexivity|]. rewrite Hfar by lia. reflexivity. }
  pose proof C as C'. destruct C as [[C|(k & Hk0 & C1 & C2)] Cb]; [lia|]. assert (Hp : 0 < 2 ^ k) by (apply Z.pow_pos_nonneg; lia).
  set (i := Z.land key (ch_mask (tm_chain t))) in *. assert (Hi : 0 <= i < ch_cap (tm_chain t)) by (unfold i; rewrite C2, land_mask, C1 by exact Hk0; apply Z.mod_pos_bound; lia).
  replace (negb ((0 <=? i) && (i <? ch_cap (tm_chain t)))) with false by lia.
  specialize (L pre hk key post EH). cbv zeta in L. fold i in L.
  destruct (Z_lt_le_dec (cur - key) (ch_cap (tm_chain t))) as [Hnear|Hd].
  - specialize (L ltac:(lia)). rewrite Hbk in L. pose proof (find_split (at_bucket (tm_table t) (bucket_idx (tm_table t) h)) post) as FS.
    destruct (find (at_bucket (tm_table t) (bucket_idx (tm_table t) h)) post) as [[hq q]|] eqn:Ef.
    + rewrite L. cbn [b_value b_hash]. destruct FS as (a & b & Ep & Fe & Fa). assert (Hq : 0 <= q < key) by (apply (Hpost (hq, q)); rewrite Ep; apply in_elt).
      replace (q + 1 =? 0) with false by lia. replace (q + 1 - 1) with q by lia. replace (q >? key) with false by lia. rewrite usub_ok by lia. cbn [bind].
      assert (Ha : forall x, In x a -> (fst x =? h) = false).
      { intros x Hx. specialize (Fa x Hx). unfold at_bucket in Fa. destruct (fst x =? h) eqn:Ex; [|reflexivity]. apply Z.eqb_eq in Ex. rewrite Ex, Z.eqb_refl in Fa. discriminate. }
      assert (Hfind : forall g : Z * Z -> bool, find (fun e => (fst e =? h) && g e) post = if (hq =? h) && g (hq, q) then Some (hq, q) else find (fun e => (fst e =? h) && g e) b).
      { intro g. rewrite Ep. clear - Ha. induction a as [|x a IHa]; cbn [app find]; [reflexivity|]. rewrite (Ha x (or_introl eq_refl)). cbn [andb]. apply IHa. intros y Hy. apply Ha. right. exact Hy. }
      rewrite (Hfind (fun e => cur - snd e <? ch_cap (tm_chain t))). cbn [snd].
      destruct (cur - q >=? ch_cap (tm_chain t)) eqn:Ed.
      * eexists. split; [reflexivity|]. replace (cur - q <? ch_cap (tm_chain t)) with false by lia. rewrite andb_false_r.
        destruct (find _ b) as [e|] eqn:E; [|reflexivity]. apply find_some in E as [Hin He]. exfalso. assert (snd e < q); [|lia].
        assert (Eq2 : H = (pre ++ (hk, key) :: a) ++ (hq, q) :: b) by (rewrite EH, Ep, <- app_assoc; reflexivity). rewrite Eq2 in So. exact (sorted_older _ _ _ So e Hin).
      * replace (cur - q <? ch_cap (tm_chain t)) with true by lia. rewrite andb_true_r. destruct (hq =? h) eqn:Eh; [eexists; split; [reflexivity|]; reflexivity|].
        apply (IH (pre ++ (hk, key) :: a) hq q b); [rewrite EH, Ep, <- app_assoc; reflexivity|unfold at_bucket in Fe; cbn [fst] in Fe; lia|lia].
    + assert (Hn : find (fun e => (fst e =? h) && (cur - snd e <? ch_cap (tm_chain t))) post = None).
      { apply find_none_all. intros e Hin. specialize (FS e Hin). unfold at_bucket in FS. destruct (fst e =? h) eqn:Eh; [|reflexivity]. apply Z.eqb_eq in Eh. rewrite Eh, Z.eqb_refl in FS. discriminate. }
      rewrite Hn. destruct (b_value (ch_pos (tm_chain t) i) =? 0) eqn:Ev; [eexists; split; reflexivity|]. destruct L as [L|L]; [lia|].
      destruct (Cb i ltac:(lia)) as (key' & K1 & _). destruct (_ >? key); [eexists; split; reflexivity|]. rewrite usub_ok by lia. cbn [bind]. replace (_ >=? ch_cap (tm_chain t)) with true by lia. eexists; split; reflexivity.
  - rewrite Hfar by exact Hd. destruct (b_value (ch_pos (tm_chain t) i) =? 0) eqn:Ev; [eexists; split; reflexivity|].
    destruct (b_value (ch_pos (tm_chain t) i) - 1 >? key) eqn:Eg; [eexists; split; reflexivity|]. destruct (Cb i ltac:(lia)) as (key' & K1 & _). rewrite usub_ok by lia. cbn [bind].
    replace (_ >=? ch_cap (tm_chain t)) with true by lia. eexists; split; reflexivity.
Qed.

(** ** The loop *)
Lemma lcp_app (a x y : list Z) : lcp (a ++ x) (a ++ y) = zlen a + lcp x y.
Proof. induction a as [|b a IH]; cbn [app lcp]; [rewrite (@zlen_nil Z); lia|]. rewrite Z.eqb_refl, IH, zlen_cons. lia. Qed.
Lemma match_at_word trgt cur p : 0 <= p -> p + 4 < cur -> cur + 4 <= zlen trgt -> sub trgt p 4 = sub trgt cur 4 ->
  match_at trgt cur p = let n := Z.min (cur - (p + 4)) (zlen trgt - (cur + 4)) in lcp (sub trgt (p + 4) n) (sub trgt (cur + 4) n) + 4.
Proof.
  intros Hp Hc Hl E. unfold match_at. cbv zeta. set (n := Z.min (cur - p) (zlen trgt - cur)). rewrite (sub_split trgt p n 4), (sub_split trgt cur n 4), E, lcp_app, zlen_sub by lia.
  replace (Z.min (cur - (p + 4)) (zlen trgt - (cur + 4))) with (n - 4) by lia. lia.
Qed.
Definition with_len (trgt : list Z) (cur : Z) (l : list Z) : list (Z * Z) := map (fun p => (p, match_at trgt cur p)) l.
Fixpoint scan (early : Z) (best : option (Z * Z)) (bl : Z) (l : list (Z * Z)) : option (Z * Z) :=
  match l with
  | [] => best
  | (p, n) :: r => if n >? bl then if n >=? early then Some (p, n) else scan early (Some (p, n)) n r else scan early best bl r
  end.
Definition is_repeat (trgt : list Z) (cur p : Z) : bool := (p + 4 <? cur) && list_eqb (sub trgt p 4) (sub trgt cur 4).
Lemma loop_step m t trgt k once last chain best bl p : 0 <= p -> 0 <= tm_pos t -> tm_pos t + 4 <= zlen trgt -> zlen trgt < 2 ^ 64 -> chain <> 0 ->
  match once with Some p => Ok (Some p) | None => chain_next m (tm_chain t) last (tm_pos t) (tm_hash t) end = Ok (Some p) ->
  find_trgt_loop (S k) m t trgt once last chain best bl =
    if is_repeat trgt (tm_pos t) p then
      let n := match_at trgt (tm_pos t) p in
      if n >? bl then if n >=? tm_early t then Ok (Some (p, n)) else find_trgt_loop k m t trgt None p (chain - 1) (Some (p, n)) n
      else find_trgt_loop k m t trgt None p (chain - 1) best bl
    else find_trgt_loop k m t trgt None p chain best bl.
Proof.
  intros Hp Hc Hl Hz Hch E. cbn [find_trgt_loop]. replace (chain =? 0) with false by lia. rewrite E. cbn [bind]. unfold is_repeat. destruct (p + 4 <? tm_pos t) eqn:E4; cbn [negb andb]; [|reflexivity].
  rewrite !slice_ok by lia. cbn [bind]. replace (p + 4 - p) with 4 by lia. replace (tm_pos t + 4 - tm_pos t) with 4 by lia. destruct (list_eqb (sub trgt p 4) (sub trgt (tm_pos t) 4)) eqn:Ew; cbn [negb]; [|reflexivity].
  rewrite !usub_ok by lia. cbn [bind]. rewrite (match_at_word trgt (tm_pos t) p Hp ltac:(lia) Hl ltac:(now apply list_eqb_eq)). reflexivity.
Qed.
Lemma take_cons_pos {A} n (x : A) l : 0 < n -> take n (x :: l) = x :: take (n - 1) l.
Proof. intro H. unfold take. replace (Z.to_nat n) with (S (Z.to_nat (n - 1))) by lia. reflexivity. Qed.
Lemma take_zero {A} (l : list A) : take 0 l = [].
Proof. reflexivity. Qed.
Lemma take_nil' {A} n : take n (@nil A) = [].
Proof. unfold take. apply firstn_nil. Qed.
Lemma filter_none {A} (f : A -> bool) l : (forall x, In x l -> f x = false) -> filter f l = [].
Proof. induction l as [|x l IH]; intro H; [reflexivity|]. cbn [filter]. rewrite (H x (or_introl eq_refl)). apply IH. intros y Hy. apply H. right. exact Hy. Qed.
Definition linked (cap cur h : Z) (e : Z * Z) : bool := (fst e =? h) && (cur - snd e <? cap).
Lemma loop_exact m t B H trgt : index_ok t B H -> B <= tm_pos t -> tm_pos t + 4 <= zlen trgt -> zlen trgt < 2 ^ 64 ->
  forall fuel pre hk key post chain best bl, H = pre ++ (hk, key) :: post -> bucket_idx (tm_table t) hk = bucket_idx (tm_table t) (tm_hash t) -> key < Z.of_nat fuel -> 0 <= chain ->
  find_trgt_loop fuel m t trgt None key chain best bl =
    Ok (scan (tm_early t) best bl (with_len trgt (tm_pos t) (take chain (repeats trgt (tm_pos t) (map snd (filter (linked (ch_cap (tm_chain t)) (tm_pos t) (tm_hash t)) post)))))).
Proof.
  intros IX HB Hl Hz. induction fuel as [|fuel IH]; intros pre hk key post chain best bl EH Hbk Hf Hch.
  { exfalso. assert (0 <= key < B) by (apply (ix_pos _ _ _ IX (hk, key)); rewrite EH; apply in_elt). lia. }
  assert (Hk : 0 <= key < B) by (apply (ix_pos _ _ _ IX (hk, key)); rewrite EH; apply in_elt).
  destruct (Z.eq_dec chain 0) as [-> |Hne]; [rewrite take_zero; reflexivity|].
  destruct (chain_exact m t B H (tm_pos t) (tm_hash t) IX ltac:(lia) (S (Z.to_nat key)) pre hk key post EH Hbk ltac:(lia)) as (r & Er & Hr). fold (chain_next m (tm_chain t) key (tm_pos t) (tm_hash t)) in Er.
  change (fun e => (fst e =? tm_hash t) && (tm_pos t - snd e <? ch_cap (tm_chain t))) with (linked (ch_cap (tm_chain t)) (tm_pos t) (tm_hash t)) in Hr.
  set (F := linked (ch_cap (tm_chain t)) (tm_pos t) (tm_hash t)) in *. pose proof (find_split F post) as FS. destruct (find F post) as [[hp p]|].
  - destruct FS as (a & b & Ep & Fe & Fa). subst r. cbn [snd] in Er.
    assert (Hhp : hp = tm_hash t) by (unfold F, linked in Fe; cbn [fst snd] in Fe; lia).
    assert (EH' : H = (pre ++ (hk, key) :: a) ++ (hp, p) :: b) by (rewrite EH, Ep, <- app_assoc; reflexivity).
    assert (Hp : 0 <= p < key).
    { split; [apply (ix_pos _ _ _ IX (hp, p)); rewrite EH'; apply in_elt|]. pose proof (ix_sorted _ _ _ IX) as So. rewrite EH in So. apply (sorted_older _ _ _ So (hp, p)). rewrite Ep. apply in_elt. }
    rewrite (loop_step m t trgt fuel None key chain best bl p ltac:(lia) ltac:(lia) Hl Hz Hne Er).
    assert (Efl : filter F post = (hp, p) :: filter F b) by (rewrite Ep, filter_app, (filter_none F a Fa); cbn [app filter]; rewrite Fe; reflexivity).
    rewrite Efl. cbn [map snd]. unfold repeats. cbn [filter]. fold (is_repeat trgt (tm_pos t) p). fold (repeats trgt (tm_pos t) (map snd (filter F b))).
    assert (Hb2 : bucket_idx (tm_table t) hp = bucket_idx (tm_table t) (tm_hash t)) by (rewrite Hhp; reflexivity).
    destruct (is_repeat trgt (tm_pos t) p).
    + rewrite take_cons_pos by lia. cbn [with_len map scan]. fold (with_len trgt (tm_pos t) (take (chain - 1) (repeats trgt (tm_pos t) (map snd (filter F b))))). cbv zeta.
      destruct (match_at trgt (tm_pos t) p >? bl); [destruct (match_at trgt (tm_pos t) p >=? tm_early t); [reflexivity|]|]; apply (IH _ _ _ _ _ _ _ EH' Hb2); lia.
    + apply (IH _ _ _ _ _ _ _ EH' Hb2); lia.
  - subst r. cbn [find_trgt_loop]. replace (chain =? 0) with false by lia. rewrite Er. cbn [bind]. rewrite (filter_none F post FS). cbn [map repeats filter]. rewrite take_nil'. reflexivity.
Qed.

(** ** [scan] is [choose] *)
Lemma scan_choose early : forall l p n, n < early -> scan early (Some (p, n)) n l = match find (fun c => early <=? snd c) l with Some c => Some c | None => longest (Some (p, n)) l end.
Proof.
  induction l as [|[q k] l IH]; intros p n Hn; cbn [scan find longest snd]; [reflexivity|].
  destruct (k >? n) eqn:E1.
  - destruct (k >=? early) eqn:E2.
    + replace (early <=? k) with true by lia. reflexivity.
    + replace (early <=? k) with false by lia. rewrite IH by lia. replace (n <? k) with true by lia. reflexivity.
  - replace (early <=? k) with false by lia. rewrite IH by lia. replace (n <? k) with false by lia. reflexivity.
Qed.
Lemma scan_choose0 early l : Forall (fun c => 0 < snd c) l -> scan early None 0 l = choose early l.
Proof.
  intro H. destruct l as [|[q k] l]; [reflexivity|]. apply Forall_cons_iff in H as [H _]. cbn [snd] in H. unfold choose. cbn [scan find longest snd].
  replace (k >? 0) with true by lia. destruct (k >=? early) eqn:E; [replace (early <=? k) with true by lia; reflexivity|]. replace (early <=? k) with false by lia. apply scan_choose. lia.
Qed.
Lemma repeats_len trgt cur l : 0 <= cur -> cur + 4 <= zlen trgt -> Forall (fun p => 0 <= p) l -> Forall (fun c => 4 <= snd c) (with_len trgt cur (repeats trgt cur l)).
Proof.
  intros Hc Hl Hp. unfold with_len. rewrite Forall_map. apply Forall_forall. intros p Hin. apply filter_In in Hin as [Hi Hr]. apply andb_true_iff in Hr as [R1 R2]. rewrite Forall_forall in Hp. specialize (Hp p Hi).
  cbn [snd]. rewrite (match_at_word trgt cur p Hp ltac:(lia) Hl ltac:(now apply list_eqb_eq)). cbv zeta.
  match goal with |- context [lcp ?a ?b] => pose proof (lcp_bound a b) end. lia.
Qed.

(** ** C105 *)
(** The capacity of the chain table (0 or a power of two): as configured, or half the length of the target rounded up to a power of two, at most 2^18. *)
Definition chain_capacity (c : trgt_config) (trgt : list Z) : Z :=
  match tc_capacity c with Some n => n | None => Z.min (2 ^ 18) (2 ^ Z.log2_up (zlen trgt) / 2) end.
(** How many repeats are looked at: as configured; a quarter of it when only matches longer than four bytes are of use. *)
Definition budget (c : trgt_config) (min_match : Z) : Z := if 4 <? min_match then Z.max 1 (tc_chain_check c / 4) else tc_chain_check c.
(** The logarithm of the number of slots of the index: at least 2; otherwise about half as many slots as three quarters of the bytes of the target, at most 2^23. *)
Definition index_bits (n : Z) : Z := Z.max 3 (Z.log2_up (Z.min (2 ^ 23) (2 ^ Z.log2_up (n + n / 2) / 2) + 1)) - 1.
(** The slot of a checksum in a table of [2 ^ bits] slots. *)
Definition slot (bits h : Z) : Z := Z.lxor (h / 2 ^ (32 - bits)) (h mod 2 ^ bits).
(** A newer entry with another checksum took the slot of the checksum searched. *)
Definition hidden (bits h : Z) (newest_first : list (Z * Z)) : bool :=
  match find (fun e => slot bits (fst e) =? slot bits h) newest_first with
  | Some e => negb (fst e =? h)
  | None => false
  end.

Lemma build_ok m c trgt : legal_trgt c -> zlen trgt < 2 ^ 62 ->
  exists t, trgt_build m c trgt 0 = Ok t /\ index_ok t 0 [] /\ tm_early t = tc_early c /\ tm_chain_check t = tc_chain_check c /\ ch_cap (tm_chain t) = chain_capacity c trgt /\ 32 - t_shift (tm_table t) = index_bits (zlen trgt).
Proof.
  intros [Hcc Hcap] Hl. pose proof (zlen_nonneg trgt) as Hz. unfold trgt_build. rewrite usub_ok by lia. cbn [bind]. rewrite Z.sub_0_r.
  set (eff := zlen trgt) in *. assert (He : 0 <= eff / 2 <= eff) by (split; [apply Z.div_pos; lia|apply Z.div_le_upper_bound; lia]).
  assert (C : match tc_capacity c with Some n => Ok n | None => do p <- next_power_of_two m eff; Ok (Z.min DEFAULT_PREV_SIZE (Z.shiftr p 1)) end = Ok (chain_capacity c trgt) /\
              (chain_capacity c trgt = 0 \/ exists k, 0 <= k /\ chain_capacity c trgt = 2 ^ k)).
  { unfold chain_capacity. destruct (tc_capacity c) as [n|]; [auto|]. destruct (next_pow2_ok m eff ltac:(lia)) as (k & -> & Hk & K1 & K0). cbn [bind].
    assert (Ek : k = Z.log2_up eff). { destruct (Z_lt_le_dec 1 eff) as [H|H]; [auto|]. rewrite K0 by lia. symmetry. apply Z.log2_up_null; lia. }
    fold eff. rewrite <- Ek. rewrite Z.shiftr_div_pow2 by lia. change (2 ^ 1) with 2. split; [reflexivity|].
    destruct (shiftr1_pow k ltac:(lia)) as [E|(j & Hj & E)]; rewrite Z.shiftr_div_pow2 in E by lia; change (2 ^ 1) with 2 in E; rewrite E; [left; reflexivity|]. right.
    destruct (Z.min_spec (2 ^ 18) (2 ^ j)) as [[_ ->]|[_ ->]]; [exists 18; split; [lia|reflexivity]|exists j; split; [lia|reflexivity]]. }
  destruct C as (-> & Hc). cbn [bind].
  destruct (next_pow2_ok m (eff + eff / 2) ltac:(lia)) as (k & -> & Hk & Hk1 & Hk0). cbn [bind]. pose proof (shiftr1_range k Hk) as Hsh.
  assert (Ek : k = Z.log2_up (eff + eff / 2)). { destruct (Z_lt_le_dec 1 (eff + eff / 2)) as [H|H]; [auto|]. rewrite Hk0 by lia. symmetry. apply Z.log2_up_null; lia. }
  destruct (table_new_ok m (Z.min DEFAULT_TRGT_WIN_SIZE (Z.shiftr (2 ^ k) 1)) true) as (tb & Etb & Htb & Hbk & _).
  { unfold DEFAULT_TRGT_WIN_SIZE. lia. }
  rewrite Etb. cbn [bind]. destruct (chain_new_total (chain_capacity c trgt) Hc) as (ch & Ec & Hch). rewrite Ec. cbn [bind]. change (0 >? 0) with false.
  eexists. split; [reflexivity|]. cbn [tm_early tm_chain_check tm_chain tm_table]. split; [|split; [reflexivity|split; [reflexivity|split]]].
  - constructor; cbn [tm_table tm_chain].
    + exact Htb.
    + intro i. rewrite Hbk. reflexivity.
    + apply Hch.
    + constructor.
    + intros e [].
    + intros pre hk key post E. destruct pre; discriminate.
  - unfold chain_new in Ec. destruct (chain_capacity c trgt =? 0) eqn:E0; [injection Ec as <-; cbn [ch_cap]; lia|].
    apply bind_ok in Ec as (u & _ & Ec). injection Ec as <-. reflexivity.
  - unfold index_bits. fold eff. rewrite <- Ek. rewrite Z.shiftr_div_pow2 in Etb by lia. change (2 ^ 1) with 2 in Etb. unfold DEFAULT_TRGT_WIN_SIZE in Etb.
    rewrite Z.shiftr_div_pow2 in Hsh by lia. change (2 ^ 1) with 2 in Hsh.
    set (sl := Z.min (2 ^ 23) (2 ^ k / 2)) in *. assert (Hsl : 0 <= sl <= 2 ^ 23) by lia. unfold table_new, table_bits in Etb.
    destruct (next_pow2_ok m (sl + 1) ltac:(lia)) as (j & Ej & Hj & J1 & J0). rewrite Ej in Etb. cbn [bind] in Etb.
    assert (Ejl : j = Z.log2_up (sl + 1)). { destruct (Z_lt_le_dec 1 (sl + 1)) as [H|H]; [auto|]. rewrite J0 by lia. symmetry. apply Z.log2_up_null; lia. }
    assert (j <= 24). { rewrite Ejl. replace 24 with (Z.log2_up (2 ^ 24)) by reflexivity. apply Z.log2_up_le_mono. lia. }
    assert (0 < 2 ^ j) by (apply Z.pow_pos_nonneg; lia). replace (2 ^ j =? 0) with false in Etb by lia. rewrite Z.log2_pow2 in Etb by lia.
    rewrite usub_ok in Etb by lia. cbn [bind] in Etb. injection Etb as <-. cbn [t_shift]. rewrite <- Ejl. lia.
Qed.

Lemma stores_ok : forall l t B H, index_ok t B H -> 0 <= B -> StronglySorted (fun a b => snd a < snd b) l -> Forall (fun e => 0 <= fst e < 2 ^ 32 /\ B <= snd e) l ->
  exists t' B', stores t l = Ok t' /\ index_ok t' B' (rev l ++ H) /\ (B' = B /\ l = [] \/ exists h, In (h, B' - 1) l) /\
    tm_early t' = tm_early t /\ tm_chain_check t' = tm_chain_check t /\ ch_cap (tm_chain t') = ch_cap (tm_chain t) /\ (forall x, bucket_idx (tm_table t') x = bucket_idx (tm_table t) x).
Proof.
  induction l as [|[h p] l IH]; intros t B H IX HB So Hl; cbn [stores].
  { exists t, B. repeat (split; [auto|]). reflexivity. }
  apply StronglySorted_inv in So as [So Sp]. apply Forall_cons_iff in Hl as [[Hh Hp] Hl]. cbn [fst snd] in *.
  destruct (store_ok t B H h p IX ltac:(lia) Hh) as (t1 & E & IX1 & E1 & E2 & E3). rewrite E. cbn [bind].
  destruct (IH t1 (p + 1) _ IX1 ltac:(lia) So) as (t2 & B2 & F & IX2 & HB2 & F1 & F2 & F3 & F4).
  { rewrite Forall_forall in *. intros e He. specialize (Sp e He). specialize (Hl e He). cbn [snd] in *. lia. }
  exists t2, B2. split; [exact F|]. split; [|split; [|split; [congruence|split; [congruence|split; [congruence|]]]]].
  - cbn [rev]. rewrite <- app_assoc. exact IX2.
  - right. destruct HB2 as [[-> ->]|[h' HB2]]; [exists h; left; f_equal; lia|exists h'; right; exact HB2].
  - intro x. rewrite F4. unfold trgt_store in E. apply bind_ok in E as ([tb r] & Ei & E). apply bind_ok in E as (c & _ & E). injection E as <-. cbn [tm_table].
    destruct (table_insert_ok 32 (tm_table t) H h p (ix_table _ _ _ IX) (ix_holds _ _ _ IX) Hh) as (t' & r' & Ei' & _ & _ & G & _).
    rewrite Ei in Ei'. injection Ei' as ? ?; subst. apply G.
Qed.
Lemma index_fwd t B H h cur : index_ok t B H -> index_ok (tm_set_fwd t h cur) B H.
Proof. intros [A1 A2 A3 A4 A5 A6]. constructor; assumption. Qed.
Lemma bucket_slot t h : table_good 32 t -> 0 <= h -> bucket_idx t h = slot (32 - t_shift t) h.
Proof.
  intros (bits & Hb & E1 & E2 & E3) Hh. unfold bucket_idx, slot. rewrite E1, E3. replace (32 - (32 - bits)) with bits by lia. rewrite land_mask by lia. rewrite Z.shiftr_div_pow2 by lia. reflexivity.
Qed.
Lemma filter_filter {A} (f g : A -> bool) l : filter f (filter g l) = filter (fun x => g x && f x) l.
Proof. induction l as [|x l IH]; [reflexivity|]. cbn [filter]. destruct (g x); cbn [andb filter]; [destruct (f x); [f_equal|]|]; exact IH. Qed.
Lemma find_ext_in {A} (f g : A -> bool) l : (forall x, In x l -> f x = g x) -> find f l = find g l.
Proof. induction l as [|x l IH]; intro H; [reflexivity|]. cbn [find]. rewrite (H x (or_introl eq_refl)). destruct (g x); [reflexivity|]. apply IH. intros y Hy. apply H. right. exact Hy. Qed.
Lemma in_taken {A} n (x : A) l : In x (take n l) -> In x l.
Proof. intro H. unfold take in H. rewrite <- (firstn_skipn (Z.to_nat n) l). apply in_or_app. left. exact H. Qed.
Lemma in_filed cap cur h p l : In p (filed cap cur h l) -> In (h, p) l.
Proof.
  unfold filed. assert (G : forall e, In e (filter (fun e => fst e =? h) l) -> In (h, snd e) l).
  { intros [a b] He. apply filter_In in He as [He Ha]. cbn [fst snd] in *. apply Z.eqb_eq in Ha. subst a. exact He. }
  destruct (filter (fun e => fst e =? h) l) as [|e r]; [intros []|]. intros [<-|Hp]; [apply G; left; reflexivity|].
  apply in_map_iff in Hp as (e' & <- & He). apply filter_In in He as [He _]. apply G. right. exact He.
Qed.
(** The search on an index that holds the entries [H] (newest first). *)
Lemma search_ok m t B trgt H cur h mm : index_ok t B H -> Forall (fun e => 0 <= fst e < 2 ^ 32) H -> 0 <= h < 2 ^ 32 -> B <= cur -> 0 <= cur -> cur + 4 <= zlen trgt -> zlen trgt < 2 ^ 62 -> 0 <= tm_chain_check t ->
  find_best_trgt_match m (tm_set_fwd t h cur) trgt mm =
    Ok (if hidden (32 - t_shift (tm_table t)) h H then None
        else choose (tm_early t) (with_len trgt cur (take (if 4 <? mm then Z.max 1 (tm_chain_check t / 4) else tm_chain_check t)
               (repeats trgt cur (filed (ch_cap (tm_chain t)) cur h H))))).
Proof.
  intros IX Hr Hh HB Hc0 Hl Hz Hcc. rewrite Forall_forall in Hr.
  unfold find_best_trgt_match. cbn [tm_set_fwd tm_table tm_hash tm_chain_check]. 
  rewrite (table_get_ok 32 (tm_table t) H h (ix_table _ _ _ IX) (ix_holds _ _ _ IX)); [|intros x Hx; apply (ix_pos _ _ _ IX x Hx)|exact Hh].
  cbn [bind]. unfold hidden.
  assert (Efs : find (at_bucket (tm_table t) (bucket_idx (tm_table t) h)) H = find (fun e => slot (32 - t_shift (tm_table t)) (fst e) =? slot (32 - t_shift (tm_table t)) h) H).
  { apply find_ext_in. intros x Hx. specialize (Hr x Hx). unfold at_bucket. rewrite !(bucket_slot _ _ (ix_table _ _ _ IX)) by lia. reflexivity. }
  rewrite Efs. match goal with |- context [find ?f H] => set (F := f) in * end. pose proof (find_split F H) as FS.
  assert (HF : forall e, (fst e =? h) = true -> F e = true) by (intros e He; apply Z.eqb_eq in He; unfold F; rewrite He; apply Z.eqb_refl).
  destruct (find F H) as [[h' p]|] eqn:Ef.
  2: { replace (filed (ch_cap (tm_chain t)) cur h H) with (@nil Z); [cbn [repeats filter]; rewrite take_nil'; reflexivity|].
       unfold filed. rewrite filter_none; [reflexivity|]. intros x Hx. destruct (fst x =? h) eqn:E; [|reflexivity]. apply HF in E. rewrite (FS x Hx) in E. discriminate. }
  destruct FS as (a & post & HH & Fp & Fa). cbn [fst]. destruct (h' =? h) eqn:Eh; cbn [negb]; [|reflexivity]. apply Z.eqb_eq in Eh. subst h'.
  assert (Hp : 0 <= p < B) by (apply (ix_pos _ _ _ IX (h, p)); rewrite HH; apply in_elt).
  cbv zeta. replace (mm >? 4) with (4 <? mm) by lia.
  set (chain := if 4 <? mm then Z.max 1 (tm_chain_check t / 4) else tm_chain_check t).
  replace (if 4 <? mm then Z.max (tm_chain_check t / 4) 1 else tm_chain_check t) with chain by (unfold chain; destruct (4 <? mm); lia).
  assert (Hch : 0 <= chain) by (unfold chain; destruct (4 <? mm); lia).
  assert (Hk : filed (ch_cap (tm_chain t)) cur h H = p :: map snd (filter (linked (ch_cap (tm_chain t)) cur h) post)).
  { unfold filed. rewrite HH, filter_app, (filter_none _ a); [|intros x Hx; destruct (fst x =? h) eqn:E; [|reflexivity]; apply HF in E; rewrite (Fa x Hx) in E; discriminate].
    cbn [app filter fst]. rewrite Z.eqb_refl. cbn [snd]. rewrite filter_filter. reflexivity. }
  rewrite Hk.
  set (t1 := tm_set_fwd t h cur). pose proof (index_fwd t B _ h cur IX) as IX1. fold t1 in IX1.
  assert (Hlen : Forall (fun c => 0 < snd c) (with_len trgt cur (take chain (repeats trgt cur (p :: map snd (filter (linked (ch_cap (tm_chain t)) cur h) post)))))).
  { assert (G : Forall (fun c => 4 <= snd c) (with_len trgt cur (repeats trgt cur (p :: map snd (filter (linked (ch_cap (tm_chain t)) cur h) post))))).
    { apply repeats_len; [exact Hc0|exact Hl|]. constructor; [lia|]. rewrite Forall_map. apply Forall_forall. intros e He. apply filter_In in He as [He _]. apply (ix_pos _ _ _ IX). rewrite HH. apply in_or_app. right; right. exact He. }
    unfold with_len in *. rewrite Forall_map in *. rewrite Forall_forall in *. intros x Hx. apply in_taken in Hx. specialize (G x Hx). cbn [snd] in *. lia. }
  rewrite <- scan_choose0 by exact Hlen. clear Hlen.
  destruct (Z.eq_dec chain 0) as [E0|Hne].
  { rewrite E0, take_zero. cbn [with_len map scan]. replace (Z.to_nat (0 + p + 2)) with (S (Z.to_nat (p + 1))) by lia. reflexivity. }
  replace (Z.to_nat (chain + p + 2)) with (S (Z.to_nat (chain + p + 1))) by lia.
  rewrite (loop_step m t1 trgt (Z.to_nat (chain + p + 1)) (Some p) p chain None 0 p ltac:(lia) Hc0 Hl ltac:(lia) Hne eq_refl).
  change (tm_pos t1) with cur. change (tm_early t1) with (tm_early t).
  assert (HL' : forall fuel chain best bl, p < Z.of_nat fuel -> 0 <= chain -> find_trgt_loop fuel m t1 trgt None p chain best bl =
     Ok (scan (tm_early t) best bl (with_len trgt cur (take chain (repeats trgt cur (map snd (filter (linked (ch_cap (tm_chain t)) cur h) post))))))).
  { intros fuel ch best bl Hfu H0. apply (loop_exact m t1 B H trgt IX1 HB Hl ltac:(lia) _ a h p post ch best bl HH); [reflexivity|lia|exact H0]. }
  unfold repeats at 1. cbn [filter]. fold (is_repeat trgt cur p).
  match goal with |- context [filter (fun p => (p + 4 <? cur) && _) ?l] => fold (repeats trgt cur l) end.
  destruct (is_repeat trgt cur p).
  - rewrite take_cons_pos by lia. cbn [with_len map scan]. cbv zeta. match goal with |- context [map _ (take (chain - 1) ?l)] => fold (with_len trgt cur (take (chain - 1) l)) end.
    destruct (match_at trgt cur p >? 0); [destruct (match_at trgt cur p >=? tm_early t); [reflexivity|]|]; apply HL'; lia.
  - apply HL'; lia.
Qed.

(** C105. The index holds [entries]. Searching it at [cur] for the checksum [h], the answer is: nothing, when a newer entry with another checksum took the slot; otherwise,
    among the first [budget] true repeats filed under [h] (newest first), the first that is at least [early] bytes long, or else the first of the longest. *)
Theorem C105_search_exact m c trgt : legal_trgt c -> zlen trgt < 2 ^ 62 ->
  exists t0, trgt_build m c trgt 0 = Ok t0 /\
    forall entries cur h min_match, entries_ok cur entries -> 0 <= h < 2 ^ 32 -> 0 <= cur -> cur + 4 <= zlen trgt ->
      exists t, stores t0 entries = Ok t /\
        find_best_trgt_match m (tm_set_fwd t h cur) trgt min_match =
          Ok (if hidden (index_bits (zlen trgt)) h (rev entries) then None
              else choose (tc_early c) (with_len trgt cur (take (budget c min_match) (repeats trgt cur (filed (chain_capacity c trgt) cur h (rev entries)))))).
Proof.
  intros Hc Hz. destruct (build_ok m c trgt Hc Hz) as (t0 & E & IX & E1 & E2 & E3 & E4). exists t0. split; [exact E|].
  intros entries cur h mm [So Hp] Hh Hc0 Hl. destruct (stores_ok entries t0 0 [] IX ltac:(lia) So) as (t & B & F & IX2 & HB & F1 & F2 & F3 & F4).
  { eapply Forall_impl; [|exact Hp]. cbv beta. lia. }
  exists t. split; [exact F|]. rewrite app_nil_r in IX2.
  assert (HBc : B <= cur). { destruct HB as [[-> _]|[h' HB]]; [lia|]. rewrite Forall_forall in Hp. specialize (Hp _ HB). cbn [snd] in Hp. lia. }
  assert (Hr : Forall (fun e : Z * Z => 0 <= fst e < 2 ^ 32) (rev entries)) by (apply Forall_rev; eapply Forall_impl; [|exact Hp]; cbv beta; tauto).
  rewrite (search_ok m t B trgt (rev entries) cur h mm IX2 Hr Hh HBc Hc0 Hl Hz); [|rewrite F2, E2; apply Hc].
  assert (Eh : hidden (32 - t_shift (tm_table t)) h (rev entries) = hidden (index_bits (zlen trgt)) h (rev entries)).
  { rewrite <- E4. unfold hidden. erewrite find_ext_in; [reflexivity|]. intros q Hq. rewrite Forall_forall in Hr. specialize (Hr q Hq). cbv beta.
    rewrite <- !(bucket_slot _ _ (ix_table _ _ _ IX)), <- !(bucket_slot _ _ (ix_table _ _ _ IX2)) by lia. rewrite !F4. reflexivity. }
  rewrite Eh, F1, F2, F3, E1, E2, E3. reflexivity.
Qed.

(** ** Consequences *)
Definition match_len (o : option (Z * Z)) : Z := match o with Some (_, n) => n | None => 0 end.
Lemma longest_len : forall l b, match_len (longest b l) = fold_left (fun a c => Z.max a (snd c)) l (match_len b) \/ exists c, In c l /\ snd c <= 0.
Proof.
  induction l as [|[p n] l IH]; intro b; cbn [longest fold_left]; [left; reflexivity|]. cbn [snd].
  destruct (Z_le_gt_dec n 0) as [Hn|Hn]; [right; exists (p, n); split; [left; reflexivity|exact Hn]|].
  destruct (IH (match b with Some (_, b0) => if b0 <? n then Some (p, n) else b | None => Some (p, n) end)) as [H|(c & Hc & H)]; [|right; exists c; split; [right; exact Hc|exact H]].
  left. rewrite H. f_equal. destruct b as [[q b]|]; cbn [match_len]; [destruct (b <? n) eqn:E; cbn [match_len]; lia|lia].
Qed.
Lemma fold_max_ge : forall (l : list (Z * Z)) a, a <= fold_left (fun a c => Z.max a (snd c)) l a /\ (forall c, In c l -> snd c <= fold_left (fun a c => Z.max a (snd c)) l a).
Proof.
  induction l as [|x l IH]; intro a; cbn [fold_left]; [split; [lia|intros ? []]|]. destruct (IH (Z.max a (snd x))) as [H1 H2]. split; [lia|].
  intros c [<-|Hc]; [lia|auto].
Qed.
Lemma longest_in : forall l b c, longest b l = Some c -> b = Some c \/ In c l.
Proof.
  induction l as [|[p n] l IH]; intros b c H; cbn [longest] in H; [left; exact H|]. apply IH in H as [H|H]; [|right; right; exact H].
  destruct b as [[q k]|]; [destruct (k <? n)|]; [injection H as <-; right; left; reflexivity|left; exact H|injection H as <-; right; left; reflexivity].
Qed.
Lemma choose_in early l c : choose early l = Some c -> In c l.
Proof. unfold choose. destruct (find _ l) as [d|] eqn:E; intro H; [injection H as <-; apply find_some in E; apply E|]. apply longest_in in H as [H|H]; [discriminate|exact H]. Qed.
Definition pos_len (l : list (Z * Z)) : Prop := Forall (fun c => 0 < snd c) l.
Lemma choose_max early l c : pos_len l -> In c l -> snd c < early \/ snd c <= match_len (choose early l) -> snd c <= match_len (choose early l).
Proof.
  intros P Hi [He|He]; [|exact He]. unfold choose. destruct (find _ l) as [[p n]|] eqn:E.
  - apply find_some in E as [_ E]. cbn [snd match_len] in *. lia.
  - destruct (longest_len l None) as [->|(d & Hd & H0)]; [apply fold_max_ge; exact Hi|]. unfold pos_len in P. rewrite Forall_forall in P. specialize (P d Hd). lia.
Qed.
Lemma find_app_first {A} (f : A -> bool) a b : find f (a ++ b) = match find f a with Some x => Some x | None => find f b end.
Proof. induction a as [|x a IH]; [reflexivity|]. cbn [app find]. destruct (f x); [reflexivity|exact IH]. Qed.
Lemma choose_mono e e' a b : e <= e' -> pos_len (a ++ b) -> match_len (choose e a) <= match_len (choose e' (a ++ b)).
Proof.
  intros He P. destruct (choose e a) as [c|] eqn:E; cbn [match_len].
  2: { destruct (choose e' (a ++ b)) as [[p n]|] eqn:E2; cbn [match_len]; [|lia]. apply choose_in in E2. unfold pos_len in P. rewrite Forall_forall in P. specialize (P _ E2). cbn in P. lia. }
  destruct c as [p n]. change n with (snd (p, n)). pose proof (choose_in _ _ _ E) as Hi. assert (Hi2 : In (p, n) (a ++ b)) by (apply in_or_app; left; exact Hi).
  apply choose_max; [exact P|exact Hi2|]. cbn [snd]. destruct (Z_lt_le_dec n e') as [H|H]; [left; exact H|right].
  (* n >= e': the first at least e long is the first at least e' long *)
  unfold choose in E. destruct (find (fun c => e <=? snd c) a) as [d|] eqn:F.
  - injection E as ->. assert (G : find (fun c => e' <=? snd c) (a ++ b) = Some (p, n)); [|unfold choose; rewrite G; cbn [match_len]; lia].
    rewrite find_app_first. pose proof (find_split (fun c => e <=? snd c) a) as FS. rewrite F in FS. destruct FS as (x & y & -> & _ & FS). rewrite find_app_first.
    rewrite find_none_all; [cbn [find snd]; replace (e' <=? n) with true by lia; reflexivity|]. intros d Hd. specialize (FS d Hd). cbv beta in FS. lia.
  - exfalso. pose proof (find_none _ _ F _ Hi) as G. cbn [snd] in G. lia.
Qed.
Definition prefix {A} (a b : list A) : Prop := exists r, b = a ++ r.
Lemma take_prefix {A} (a b : list A) n n' : 0 <= n <= n' -> prefix a b -> prefix (take n a) (take n' b).
Proof.
  intros Hn [r ->]. unfold take. rewrite firstn_app. exists (skipn (Z.to_nat n) (firstn (Z.to_nat n') a) ++ firstn (Z.to_nat n' - length a) r). rewrite app_assoc. f_equal.
  rewrite <- (firstn_skipn (Z.to_nat n) (firstn (Z.to_nat n') a)) at 1. f_equal. rewrite firstn_firstn. f_equal. lia.
Qed.
Lemma prefix_filter {A} (f : A -> bool) a b : prefix a b -> prefix (filter f a) (filter f b).
Proof. intros [r ->]. exists (filter f r). apply filter_app. Qed.
Lemma prefix_map {A B} (f : A -> B) a b : prefix a b -> prefix (map f a) (map f b).
Proof. intros [r ->]. exists (map f r). apply map_app. Qed.
Lemma filter_prefix (l : list (Z * Z)) cap cap' cur : StronglySorted older l -> cap <= cap' -> prefix (filter (fun e => cur - snd e <? cap) l) (filter (fun e => cur - snd e <? cap') l).
Proof.
  intros So Hc. induction l as [|x l IH]; [exists []; reflexivity|]. apply StronglySorted_inv in So as [So Sx]. rewrite Forall_forall in Sx. cbn [filter].
  destruct (cur - snd x <? cap) eqn:E.
  - replace (cur - snd x <? cap') with true by lia. destruct (IH So) as [r Hr]. exists r. cbn [app]. rewrite Hr. reflexivity.
  - rewrite filter_none; [eexists; reflexivity|]. intros y Hy. specialize (Sx y Hy). unfold older in Sx. lia.
Qed.
Lemma sorted_filter {A} (R : A -> A -> Prop) (f : A -> bool) l : StronglySorted R l -> StronglySorted R (filter f l).
Proof.
  induction l as [|x l IH]; intro H; [constructor|]. apply StronglySorted_inv in H as [H Hx]. cbn [filter]. destruct (f x); [|exact (IH H)]. constructor; [exact (IH H)|].
  rewrite Forall_forall in *. intros y Hy. apply filter_In in Hy as [Hy _]. exact (Hx y Hy).
Qed.
Lemma sorted_rev (l : list (Z * Z)) : StronglySorted (fun a b => snd a < snd b) l -> StronglySorted older (rev l).
Proof.
  induction l as [|x l IH]; intro H; [constructor|]. apply StronglySorted_inv in H as [H Hx]. cbn [rev].
  specialize (IH H). rewrite Forall_forall in Hx.
  assert (G : forall k, StronglySorted older k -> (forall y, In y k -> snd x < snd y) -> StronglySorted older (k ++ [x])).
  { induction k as [|z k IHk]; intros S Hk; cbn [app]; [constructor; constructor|]. apply StronglySorted_inv in S as [S Sz]. constructor.
    - apply IHk; [exact S|]. intros y Hy. apply Hk. right. exact Hy.
    - apply Forall_app. split; [exact Sz|]. constructor; [apply Hk; left; reflexivity|constructor]. }
  apply G; [exact IH|]. intros y Hy. apply Hx. apply in_rev. exact Hy.
Qed.
Lemma filed_prefix cap cap' cur h l : StronglySorted older l -> cap <= cap' -> prefix (filed cap cur h l) (filed cap' cur h l).
Proof.
  intros So Hc. unfold filed. pose proof (sorted_filter _ (fun e => fst e =? h) l So) as S. destruct (filter (fun e => fst e =? h) l) as [|e r]; [exists []; reflexivity|].
  apply StronglySorted_inv in S as [S _]. destruct (prefix_map snd _ _ (filter_prefix r cap cap' cur S Hc)) as [q Hq]. exists q. cbn [app]. rewrite Hq. reflexivity.
Qed.
Lemma repeats_pos trgt cur cap h mm c entries : entries_ok cur entries -> 0 <= cur -> cur + 4 <= zlen trgt -> pos_len (with_len trgt cur (take (budget c mm) (repeats trgt cur (filed cap cur h (rev entries))))).
Proof.
  intros [_ Hp] Hc Hl. assert (R : Forall (fun c => 4 <= snd c) (with_len trgt cur (repeats trgt cur (filed cap cur h (rev entries))))).
  { apply repeats_len; [exact Hc|exact Hl|]. apply Forall_forall. intros y Hy. apply in_filed in Hy. apply in_rev in Hy. rewrite Forall_forall in Hp. specialize (Hp _ Hy). cbn [snd] in Hp. lia. }
  unfold pos_len, with_len in *. rewrite Forall_map in *. rewrite Forall_forall in *. intros p Hin. apply in_taken in Hin. specialize (R p Hin). cbn [snd] in *. lia.
Qed.

(** C105, consequence: at the same place and with the same entries, larger settings (look at more repeats, keep more, stop later) never find a shorter match. *)
Theorem C105_more_is_longer m c c' trgt t0 t0' entries cur h min_match t t' r r' :
  legal_trgt c -> legal_trgt c' -> zlen trgt < 2 ^ 62 ->
  tc_early c <= tc_early c' -> tc_chain_check c <= tc_chain_check c' -> chain_capacity c trgt <= chain_capacity c' trgt ->
  trgt_build m c trgt 0 = Ok t0 -> trgt_build m c' trgt 0 = Ok t0' ->
  entries_ok cur entries -> 0 <= h < 2 ^ 32 -> 0 <= cur -> cur + 4 <= zlen trgt ->
  stores t0 entries = Ok t -> stores t0' entries = Ok t' ->
  find_best_trgt_match m (tm_set_fwd t h cur) trgt min_match = Ok r ->
  find_best_trgt_match m (tm_set_fwd t' h cur) trgt min_match = Ok r' ->
  match_len r <= match_len r'.
Proof.
  intros L L' Hz H1 H2 H3 B B' En Hh Hc Hl S S' F F'.
  destruct (C105_search_exact m c trgt L Hz) as (x & E & X). rewrite B in E. injection E as <-. destruct (X entries cur h min_match En Hh Hc Hl) as (y & E & Y). rewrite S in E. injection E as <-. rewrite F in Y. injection Y as ->. clear X.
  destruct (C105_search_exact m c' trgt L' Hz) as (x & E & X). rewrite B' in E. injection E as <-. destruct (X entries cur h min_match En Hh Hc Hl) as (y & E & Y). rewrite S' in E. injection E as <-. rewrite F' in Y. injection Y as ->. clear X.
  destruct (hidden _ _ _); [cbn [match_len]; lia|].
  assert (Hn : 0 <= budget c min_match <= budget c' min_match).
  { unfold budget. destruct L as [L _]. destruct (4 <? min_match); [|lia]. assert (tc_chain_check c / 4 <= tc_chain_check c' / 4) by (apply Z.div_le_mono; lia). lia. }
  pose proof (filed_prefix _ _ cur h (rev entries) (sorted_rev _ (proj1 En)) H3) as Pk. apply (prefix_filter (fun p => (p + 4 <? cur) && list_eqb (sub trgt p 4) (sub trgt cur 4))) in Pk.
  pose proof (repeats_pos trgt cur (chain_capacity c' trgt) h min_match c' entries En Hc Hl) as P.
  destruct (take_prefix _ _ _ _ Hn Pk) as [q Hq]. unfold repeats in *. rewrite Hq in *. unfold with_len in *. rewrite map_app in *. apply choose_mono; [exact H1|exact P].
Qed.

Lemma filter_len {A} (f : A -> bool) l : (length (filter f l) <= length l)%nat.
Proof. induction l as [|x l IH]; cbn [filter length]; [lia|]. destruct (f x); cbn [length]; lia. Qed.
Lemma filter_all {A} (f : A -> bool) l : (forall x, In x l -> f x = true) -> filter f l = l.
Proof. induction l as [|x l IH]; intro H; [reflexivity|]. cbn [filter]. rewrite (H x (or_introl eq_refl)). f_equal. apply IH. intros y Hy. apply H. right. exact Hy. Qed.
(** C105, consequence: with settings large enough nothing is missed but what a colliding newer entry hides: the longest repeat filed under the checksum searched is found. *)
Theorem C105_longest_found m c trgt t0 entries cur h min_match t r :
  legal_trgt c -> zlen trgt < 2 ^ 62 -> trgt_build m c trgt 0 = Ok t0 ->
  entries_ok cur entries -> 0 <= h < 2 ^ 32 -> 0 <= cur -> cur + 4 <= zlen trgt -> stores t0 entries = Ok t ->
  zlen trgt < tc_early c -> zlen entries <= budget c min_match -> Forall (fun e => cur - snd e < chain_capacity c trgt) entries ->
  hidden (index_bits (zlen trgt)) h (rev entries) = false ->
  find_best_trgt_match m (tm_set_fwd t h cur) trgt min_match = Ok r ->
  match r with
  | Some (p, n) => In (h, p) entries /\ p + n <= cur /\ 4 <= n /\ sub trgt p n = sub trgt cur n
  | None => True
  end /\
  forall q k, In (h, q) entries -> q + k <= cur -> q + 4 < cur -> 4 <= k -> cur + k <= zlen trgt -> sub trgt q k = sub trgt cur k -> k <= match_len r.
Proof.
  intros L Hz B En Hh Hc Hl S He Hb Hcap Hhid F.
  destruct (C105_search_exact m c trgt L Hz) as (x & E & X). rewrite B in E. injection E as <-. destruct (X entries cur h min_match En Hh Hc Hl) as (y & E & Y). rewrite S in E. injection E as <-. rewrite F in Y. injection Y as ->. clear X F. rewrite Hhid.
  pose proof (repeats_pos trgt cur (chain_capacity c trgt) h min_match c entries En Hc Hl) as P. destruct En as [So Hp]. rewrite Forall_forall in Hcap, Hp.
  assert (Ek : filed (chain_capacity c trgt) cur h (rev entries) = map snd (filter (fun e => fst e =? h) (rev entries))).
  { unfold filed. destruct (filter (fun e => fst e =? h) (rev entries)) as [|e l] eqn:El; [reflexivity|]. cbn [map]. rewrite filter_all; [reflexivity|]. intros x Hx.
    assert (Hi : In x (filter (fun e => fst e =? h) (rev entries))) by (rewrite El; right; exact Hx). apply filter_In in Hi as [Hi _]. apply in_rev in Hi. specialize (Hcap x Hi). lia. }
  rewrite Ek in *.
  assert (Et : take (budget c min_match) (repeats trgt cur (map snd (filter (fun e => fst e =? h) (rev entries)))) = repeats trgt cur (map snd (filter (fun e => fst e =? h) (rev entries)))).
  { unfold take. apply firstn_all2. unfold zlen in Hb. pose proof (filter_len (fun p => (p + 4 <? cur) && list_eqb (sub trgt p 4) (sub trgt cur 4)) (map snd (filter (fun e => fst e =? h) (rev entries)))) as G. rewrite map_length in G.
    pose proof (filter_len (fun e : Z * Z => fst e =? h) (rev entries)) as G2. rewrite rev_length in G2. unfold repeats. lia. }
  rewrite Et in *.
  assert (Hin : forall p, In p (map snd (filter (fun e => fst e =? h) (rev entries))) <-> In (h, p) entries).
  { intro p. split; intro Hi.
    - apply in_map_iff in Hi as ([a b] & <- & Hi). apply filter_In in Hi as [Hi Ha]. cbn [fst snd] in *. apply Z.eqb_eq in Ha. subst a. apply in_rev. exact Hi.
    - apply in_map_iff. exists (h, p). split; [reflexivity|]. apply filter_In. split; [apply in_rev; rewrite rev_involutive; exact Hi|apply Z.eqb_refl]. }
  assert (P4 : Forall (fun c => 4 <= snd c) (with_len trgt cur (repeats trgt cur (map snd (filter (fun e => fst e =? h) (rev entries)))))).
  { apply repeats_len; [exact Hc|exact Hl|]. apply Forall_forall. intros p Hi. apply Hin in Hi. specialize (Hp _ Hi). cbn [snd] in Hp. lia. }
  assert (Hm : forall p, 0 <= p < cur -> let n := match_at trgt cur p in 0 <= n <= Z.min (cur - p) (zlen trgt - cur) /\ sub trgt p n = sub trgt cur n).
  { intros p Hpp. cbv zeta. unfold match_at. set (n := Z.min (cur - p) (zlen trgt - cur)). pose proof (lcp_bound (sub trgt p n) (sub trgt cur n)) as G. rewrite !zlen_sub in G by lia. split; [lia|].
    pose proof (lcp_take (sub trgt p n) (sub trgt cur n)) as G2. rewrite !take_sub in G2 by lia. exact G2. }
  split.
  - destruct (choose _ _) as [[p n]|] eqn:E; [|exact I]. apply choose_in in E. rewrite Forall_forall in P4. specialize (P4 _ E). cbn [snd] in P4.
    apply in_map_iff in E as (p' & E & Hi). injection E as -> <-. apply filter_In in Hi as [Hi _]. apply Hin in Hi. specialize (Hp _ Hi). cbn [snd] in Hp. specialize (Hm p ltac:(lia)). cbv zeta in Hm. split; [exact Hi|]. split; [lia|]. split; [exact P4|]. apply Hm.
  - intros q k Hq H1 H2 H3 H4 H5. specialize (Hp _ Hq). cbn [snd] in Hp. assert (Hr : In (q, match_at trgt cur q) (with_len trgt cur (repeats trgt cur (map snd (filter (fun e => fst e =? h) (rev entries)))))).
    { apply in_map_iff. exists q. split; [reflexivity|]. apply filter_In. split; [apply Hin; exact Hq|]. replace (q + 4 <? cur) with true by lia. cbn [andb]. apply list_eqb_eq.
      pose proof (f_equal (take 4) H5) as G. rewrite !take_sub in G by lia. exact G. }
    assert (Hk : k <= match_at trgt cur q).
    { unfold match_at. cbv zeta. set (n := Z.min (cur - q) (zlen trgt - cur)). rewrite (sub_split trgt q n k), (sub_split trgt cur n k), H5, lcp_app, zlen_sub by lia.
      match goal with |- context [lcp ?a ?b] => pose proof (lcp_bound a b) end. lia. }
    pose proof (choose_max (tc_early c) _ _ P Hr) as G. cbn [snd] in G. specialize (Hm q ltac:(lia)). cbv zeta in Hm. specialize (G ltac:(left; lia)). lia.
Qed.
(** ** Every search of the encoder *)
(** The states the main loop goes through. *)
Inductive visited (m : mode) (src trgt : list Z) (lazy mx : Z) (e0 : est) : est -> Prop :=
| v_start : visited m src trgt lazy mx e0 e0
| v_step e e' : visited m src trgt lazy mx e0 e -> e_cur e + 4 < mx -> estep m src trgt lazy mx e = Ok e' -> visited m src trgt lazy mx e0 e'.
(** The checksum under which the word at [p] is filed or searched: [jump] is the first place the encoder skipped to. Before it the checksum is the wrong one of C88
    (what is left when the checksum of the first word, times the [p]th power of the multiplier, is taken away), from there on it is the right one. *)
Definition word_hash (trgt : list Z) (p : Z) : Z := calculate_small_checksum (sub trgt p 4).
Definition skewed_hash (trgt : list Z) (p : Z) : Z := (word_hash trgt p - word_hash trgt 0 * SMALL_MULT ^ p) mod 2 ^ 32.
Definition hash_used (trgt : list Z) (jump p : Z) : Z := if p <? jump then skewed_hash trgt p else word_hash trgt p.
Lemma hash_used_range trgt j p : 0 <= hash_used trgt j p < 2 ^ 32.
Proof. unfold hash_used. destruct (p <? j); [apply Z.mod_pos_bound; lia|apply small_range]. Qed.
Lemma stores_snoc : forall l t h p, stores t (l ++ [(h, p)]) = do t <- stores t l; trgt_store t h p.
Proof.
  induction l as [|[a b] l IH]; intros t h p; cbn [app stores].
  - cbn [bind]. destruct (trgt_store t h p); reflexivity.
  - destruct (trgt_store t a b); cbn [bind]; [apply IH|reflexivity|reflexivity|reflexivity].
Qed.
Lemma store_fwd t h p h' p' : trgt_store (tm_set_fwd t h' p') h p = do t <- trgt_store t h p; Ok (tm_set_fwd t h' p').
Proof.
  unfold trgt_store. cbn [tm_set_fwd tm_table tm_chain tm_early tm_chain_check tm_hash tm_pos tm_max]. destruct (table_insert (tm_table t) h p) as [[tb r]| | |]; cbn [bind]; [|reflexivity|reflexivity|reflexivity].
  destruct (match r with SetNew => _ | SetSame _ => _ | SetEvicted _ _ => _ end); reflexivity.
Qed.
Definition sinv (trgt : list Z) (t0 : trgt_matcher) (e : est) (t : trgt_matcher) : Prop :=
  exists jump entries t1, 0 <= jump <= zlen trgt /\ (jump <= e_cur e \/ jump = zlen trgt) /\ entries_ok (e_cur e) entries /\ Forall (fun x => fst x = hash_used trgt jump (snd x)) entries /\
    stores t0 entries = Ok t1 /\ t = tm_set_fwd t1 (tm_hash t) (tm_pos t) /\
    match e_st e with
    | StartNewMatch => (e_cur e = 0 /\ tm_pos t = 0 /\ tm_hash t = 0 /\ jump = zlen trgt) \/ tm_pos t + 4 <= e_cur e
    | _ => tm_hash t = hash_used trgt jump (e_cur e)
    end.
Lemma entries_mono cur cur' l : cur <= cur' -> entries_ok cur l -> entries_ok cur' l.
Proof. intros H [S F]. split; [exact S|]. eapply Forall_impl; [|exact F]. cbv beta. lia. Qed.
Lemma entries_snoc cur h l : 0 <= cur -> 0 <= h < 2 ^ 32 -> entries_ok cur l -> entries_ok (cur + 1) (l ++ [(h, cur)]).
Proof.
  intros Hc Hh [S F]. split.
  - induction l as [|x l IH]; cbn [app]; [constructor; constructor|]. apply StronglySorted_inv in S as [S Sx]. apply Forall_cons_iff in F as [Fx F]. constructor; [exact (IH S F)|].
    apply Forall_app. split; [exact Sx|]. constructor; [cbn [snd]; lia|constructor].
  - apply Forall_app. split; [eapply Forall_impl; [|exact F]; cbv beta; lia|]. constructor; [cbn [fst snd]; lia|constructor].
Qed.
Lemma skewed_poll trgt p : skewed_hash trgt p = poll trgt p.
Proof. reflexivity. Qed.
Lemma word_csum trgt p : word_hash trgt p = csum trgt p.
Proof. reflexivity. Qed.
Lemma hash_used_fwd trgt j p old new : 0 <= p -> p + 4 < zlen trgt -> j <= p \/ j = zlen trgt -> idx trgt p = Ok old -> idx trgt (p + 4) = Ok new ->
  update_small_checksum_fwd (hash_used trgt j p) old new = hash_used trgt j (p + 1).
Proof.
  intros Hp Hl Hj Ho Hn. unfold hash_used. destruct (p <? j) eqn:E.
  - replace (p + 1 <? j) with true by lia. rewrite !skewed_poll. apply poll_fwd; assumption.
  - replace (p + 1 <? j) with false by lia. rewrite !word_csum. apply csum_fwd; assumption.
Qed.
Lemma try_keeps m src trgt mx e e' : try_match m src trgt mx e = Ok e' -> e_trgt e' = e_trgt e /\ e_cur e' = e_cur e /\ e_st e' <> StartNewMatch /\ e_st e' <> TryMatch.
Proof.
  unfold try_match. intro E. apply bind_ok in E as (e1 & E1 & E).
  assert (H1 : e_trgt e1 = e_trgt e /\ e_cur e1 = e_cur e).
  { unfold try_run in E1. apply bind_ok in E1 as (r & _ & E1). destruct (e_run e =? 4); [|injection E1 as <-; auto]. apply bind_ok in E1 as (r' & _ & E1). injection E1 as <-. auto. }
  destruct H1 as (H1 & H3). assert (Fd : forall ops len, e_trgt (found e1 ops len) = e_trgt e /\ e_cur (found e1 ops len) = e_cur e /\ e_st (found e1 ops len) <> StartNewMatch /\ e_st (found e1 ops len) <> TryMatch).
  { intros ops len. cbn [found e_trgt e_cur e_st]. repeat split; [exact H1|exact H3|discriminate|discriminate]. }
  apply bind_ok in E as (o & Eo & E). destruct o as [e2|].
  { injection E as <-. unfold take_run in Eo. destruct (_ && _); [|discriminate Eo]. apply bind_ok in Eo as (w & _ & Eo). apply bind_ok in Eo as (u & _ & Eo). injection Eo as <-. apply Fd. }
  apply bind_ok in E as (o & Es & E). destruct o as [e2|].
  { injection E as <-. unfold try_src in Es. destruct (e_src e1) as [s|]; [|discriminate Es]. cbv zeta in Es. destruct (e_cur e1 + 9 <=? mx); [|discriminate Es]. apply bind_ok in Es as (u & _ & Es). apply bind_ok in Es as (r & _ & Es).
    destruct r as [[[sp pre] post]|]; [|discriminate Es]. destruct (post >=? e_min e1); [|discriminate Es]. apply bind_ok in Es as (st & _ & Es). apply bind_ok in Es as (ops & Ec & Es). apply bind_ok in Es as (ss & _ & Es).
    apply bind_ok in Es as (u1 & _ & Es). apply bind_ok in Es as (u2 & _ & Es). injection Es as <-. apply Fd. }
  apply bind_ok in E as (o & Et & E). destruct o as [e2|].
  { injection E as <-. unfold try_trgt in Et. destruct (e_trgt e1) as [t|]; [|discriminate Et]. cbv zeta in Et. destruct (e_cur e1 + 4 <=? mx); [|discriminate Et]. apply bind_ok in Et as (u & _ & Et). apply bind_ok in Et as (r & _ & Et).
    destruct r as [[st len]|]; [|discriminate Et]. destruct (len >=? e_min e1); [|discriminate Et]. apply bind_ok in Et as (u1 & _ & Et). apply bind_ok in Et as (u2 & _ & Et). injection Et as <-. apply Fd. }
  injection E as <-. cbn [e_trgt e_cur e_st]. repeat split; [exact H1|exact H3|discriminate|discriminate].
Qed.
Lemma estep_sinv m src trgt lazy mx e e' t0 t : zlen trgt < 2 ^ 62 -> mx <= zlen trgt -> e_cur e + 4 < mx -> einv src trgt mx e -> e_trgt e = Some t -> sinv trgt t0 e t ->
  estep m src trgt lazy mx e = Ok e' -> exists t', e_trgt e' = Some t' /\ sinv trgt t0 e' t'.
Proof.
  intros Hz Hmx Hc V Et (j & en & t1 & J1 & J2 & Eok & Eh & St & Eq & Hst) H. pose proof (iv_cur _ _ _ _ V) as Hcur. pose proof (iv_tm _ _ _ _ V) as R. rewrite Et in R. destruct R as (R1 & R2 & R3).
  pose proof (iv_st _ _ _ _ V) as Vs. unfold estep in H. destruct (e_st e) as [| |len|] eqn:Est; cbn [is_start] in R3.
  - unfold start_new_match in H. apply bind_ok in H as ([r b] & _ & H). apply bind_ok in H as (sm & _ & H). apply bind_ok in H as (tm & Es & H). injection H as <-. rewrite Et in Es. cbn [opt_map] in Es. apply bind_ok in Es as (t2 & Ek & Es). injection Es as <-.
    exists t2. split; [reflexivity|]. unfold trgt_seek in Ek. replace (tm_pos t <? tm_max t) with true in Ek by lia. unfold sinv. cbn [e_cur e_st].
    assert (Hup : forall h, tm_set_fwd t h (e_cur e) = tm_set_fwd t1 h (e_cur e)) by (intro h; rewrite Eq; reflexivity).
    destruct Hst as [(C0 & P0 & H0 & Hj)|Hst].
    + rewrite P0, C0 in Ek. change (0 + 4 >? 0) with true in Ek. change (Z.to_nat (0 - 0)) with O in Ek. cbn [roll_small bind] in Ek. rewrite <- C0, Hup in Ek. injection Ek as <-. exists j, en, t1. cbn [tm_set_fwd tm_hash tm_pos].
      split; [exact J1|]. split; [exact J2|]. split; [exact Eok|]. split; [exact Eh|]. split; [exact St|]. split; [reflexivity|]. rewrite C0, H0. unfold hash_used. replace (0 <? j) with true by lia. rewrite skewed_poll, poll_0. reflexivity.
    + replace (tm_pos t + 4 >? e_cur e) with false in Ek by lia. rewrite slice_ok in Ek by lia. cbn [bind] in Ek. replace (e_cur e + 4 - e_cur e) with 4 in Ek by lia. fold (word_hash trgt (e_cur e)) in Ek. rewrite Hup in Ek. injection Ek as <-.
      exists (Z.min j (e_cur e)), en, t1. cbn [tm_set_fwd tm_hash tm_pos]. split; [lia|]. split; [lia|]. split; [exact Eok|]. split; [|split; [exact St|]].
      * destruct Eok as [_ Eok]. rewrite Forall_forall in *. intros x Hx. rewrite (Eh x Hx). specialize (Eok x Hx). unfold hash_used. replace (snd x <? Z.min j (e_cur e)) with (snd x <? j) by lia. reflexivity.
      * split; [reflexivity|]. unfold hash_used. replace (e_cur e <? Z.min j (e_cur e)) with false by lia. reflexivity.
  - apply try_keeps in H as (K1 & K2 & K3 & K4). exists t. split; [congruence|]. exists j, en, t1. rewrite K2. repeat (split; [assumption|]). destruct (e_st e'); [congruence|congruence|exact Hst|exact Hst].
  - unfold found_match in H. apply bind_ok in H as (l & _ & H). destruct (_ && _ && _); injection H as <-; exists t; (split; [exact Et|]); exists j, en, t1; cbn [e_cur e_st].
    + repeat (split; [assumption|]). exact Hst.
    + destruct Vs as (V1 & V2 & _). split; [exact J1|]. split; [lia|]. split; [apply (entries_mono (e_cur e)); [lia|exact Eok]|]. split; [exact Eh|]. split; [exact St|]. split; [exact Eq|]. right. lia.
  - unfold move_forward in H. apply bind_ok in H as (c & _ & H). apply bind_ok in H as (tm & Ef & H). apply bind_ok in H as (sm & _ & H). injection H as <-. rewrite Et in Ef. cbn [opt_map] in Ef. apply bind_ok in Ef as (t2 & Ef & Es). injection Es as <-.
    exists t2. split; [reflexivity|]. unfold trgt_forward in Ef. apply bind_ok in Ef as (t3 & E3 & Ef). destruct (trgt_store_same _ _ _ _ E3) as (P1 & P2 & P3). rewrite P1, P2 in Ef. replace (tm_pos t <? tm_max t) with true in Ef by lia.
    apply bind_ok in Ef as (o & Eo & Ef). apply bind_ok in Ef as (n & En & Ef). injection Ef as <-. rewrite P3, Hst in *. rewrite (hash_used_fwd trgt j (e_cur e) o n ltac:(lia) ltac:(lia) J2 Eo En).
    rewrite Eq, store_fwd in E3. apply bind_ok in E3 as (t4 & E4 & E3). injection E3 as <-. exists j, (en ++ [(hash_used trgt j (e_cur e), e_cur e)]), t4. cbn [tm_set_fwd tm_hash tm_pos e_cur e_st].
    split; [exact J1|]. split; [lia|]. split; [apply entries_snoc; [lia|apply hash_used_range|exact Eok]|]. split; [apply Forall_app; split; [exact Eh|constructor; [reflexivity|constructor]]|].
    split; [rewrite stores_snoc, St; exact E4|]. split; reflexivity.
Qed.
(** C105. So every search the encoder makes (without naive tests) is described by [C105_search_exact]: there are entries, one for each of some of the positions passed, each filed under the checksum in use
    there, and the answer is what the specification says for these entries. *)
Theorem C105_every_search m src trgt lazy c t0 sm e t min_match :
  Forall is_byte trgt -> zlen trgt < 2 ^ 62 -> zlen src < 2 ^ 63 -> legal_trgt c -> trgt_build m c trgt 0 = Ok t0 ->
  sm = None \/ (exists sc s, src_build m sc src 0 trgt = Ok s /\ sm = Some s) ->
  visited m src trgt lazy (zlen trgt) (mkE [] 0 4 0 0 StartNewMatch sm (Some t0)) e -> e_st e = TryMatch -> e_cur e + 4 <= zlen trgt -> e_trgt e = Some t ->
  exists jump entries, 0 <= jump <= zlen trgt /\ entries_ok (e_cur e) entries /\ Forall (fun x => fst x = hash_used trgt jump (snd x)) entries /\
    find_best_trgt_match m t trgt min_match =
      Ok (if hidden (index_bits (zlen trgt)) (hash_used trgt jump (e_cur e)) (rev entries) then None
          else choose (tc_early c) (with_len trgt (e_cur e) (take (budget c min_match)
                 (repeats trgt (e_cur e) (filed (chain_capacity c trgt) (e_cur e) (hash_used trgt jump (e_cur e)) (rev entries)))))).
Proof.
  intros Hb Hz Hs L B Hsm V Hst Hcur Het. pose proof (zlen_nonneg trgt) as Hz0.
  assert (G : forall e, visited m src trgt lazy (zlen trgt) (mkE [] 0 4 0 0 StartNewMatch sm (Some t0)) e -> einv src trgt (zlen trgt) e /\ exists t, e_trgt e = Some t /\ sinv trgt t0 e t).
  { clear e t V Hst Hcur Het. intros e V. induction V as [|e e' V [IV (t & Et & SI)] Hlt Hstep].
    - split.
      + constructor; cbn [e_cur e_min e_byte e_ops e_st e_src e_trgt is_start]; auto; try lia.
        * unfold is_byte. lia.
        * split; constructor.
        * exact I.
        * exact I.
        * destruct Hsm as [->|(sc & s & Es & ->)]; [exact I|]. exact (src_build_rel m sc src trgt 0 s ltac:(lia) Es).
        * exact (trgt_build_rel m c trgt 0 t0 ltac:(lia) B).
      + exists t0. split; [reflexivity|]. destruct (build_dirty _ _ _ _ B) as (D1 & D2 & _). exists (zlen trgt), [], t0. cbn [e_cur e_st stores]. split; [lia|]. split; [right; reflexivity|]. split; [split; constructor|]. split; [constructor|]. split; [reflexivity|].
        split; [destruct t0; reflexivity|]. left. auto.
    - split; [exact (estep_inv m src trgt lazy (zlen trgt) e e' Hb ltac:(lia) ltac:(lia) ltac:(lia) Hlt IV Hstep)|]. exact (estep_sinv m src trgt lazy (zlen trgt) e e' t0 t Hz ltac:(lia) Hlt IV Et SI Hstep). }
  destruct (G e V) as [IV (t' & Et' & SI)]. rewrite Het in Et'. injection Et' as <-. destruct SI as (j & en & t1 & J1 & J2 & Eok & Eh & St & Eq & Hh). rewrite Hst in Hh.
  exists j, en. split; [exact J1|]. split; [exact Eok|]. split; [exact Eh|]. pose proof (iv_cur _ _ _ _ IV) as Hc. pose proof (iv_tm _ _ _ _ IV) as R. rewrite Het, Hst in R. cbn [is_start] in R. destruct R as (_ & _ & R3).
  destruct (C105_search_exact m c trgt L Hz) as (x & E & X). rewrite B in E. injection E as <-. destruct (X en (e_cur e) (hash_used trgt j (e_cur e)) min_match Eok (hash_used_range _ _ _) ltac:(lia) Hcur) as (y & E & Y). rewrite St in E. injection E as <-.
  rewrite Hh, R3 in Eq. rewrite Eq. exact Y.
Qed.

(** ** Beside the theorems *)
Definition search m c trgt entries cur h min_match : res (option (Z * Z)) :=
  do t0 <- trgt_build m c trgt 0; do t <- stores t0 entries; find_best_trgt_match m (tm_set_fwd t h cur) trgt min_match.
(** The words at these positions under their right checksums. *)
Definition words (trgt : list Z) (l : list Z) : list (Z * Z) := map (fun p => (word_hash trgt p, p)) l.
Definition first_n (n : nat) : list Z := map Z.of_nat (seq 0 n).
Lemma words_ok trgt l cur : StronglySorted Z.lt l -> Forall (fun p => 0 <= p < cur) l -> entries_ok cur (words trgt l).
Proof.
  intros S F. unfold words. split.
  - induction l as [|x l IH]; cbn [map]; [constructor|]. apply StronglySorted_inv in S as [S Sx]. apply Forall_cons_iff in F as [_ F]. constructor; [exact (IH S F)|]. rewrite Forall_map. exact Sx.
  - rewrite Forall_map. eapply Forall_impl; [|exact F]. intros p Hp. cbn [fst snd]. split; [apply small_range|exact Hp].
Qed.
Lemma first_ok trgt n cur : Z.of_nat n <= cur -> entries_ok cur (words trgt (first_n n)).
Proof.
  intro H. apply words_ok.
  - unfold first_n. generalize 0%nat. clear H. induction n as [|n IH]; intro k; cbn [seq map]; [constructor|]. constructor; [apply IH|]. apply Forall_forall. intros x Hx. apply in_map_iff in Hx as (y & <- & Hy). apply in_seq in Hy. lia.
  - unfold first_n. apply Forall_forall. intros x Hx. apply in_map_iff in Hx as (y & <- & Hy). apply in_seq in Hy. lia.
Qed.
Lemma legal_auto e k : 0 <= k -> legal_trgt (mkTC e k None).
Proof. intro H. split; [exact H|exact I]. Qed.
(** The repeats of "abcdef" before position 18, newest first: one of 6 bytes at 11, one of 5 at 5 (and one of 4 at 0, too far back); the early exit decides, and then how many are looked at. *)
Definition ts : list Z := [97;98;99;100;1;97;98;99;100;101;2;97;98;99;100;101;102;3;97;98;99;100;101;102;4;5].
Example C105_search_exact_example : forall m,
  legal_trgt (mkTC 70 33 None) /\ entries_ok 18 (words ts (first_n 18)) /\ chain_capacity (mkTC 70 33 None) ts = 16 /\
  with_len ts 18 (repeats ts 18 (filed 16 18 (word_hash ts 18) (rev (words ts (first_n 18))))) = [(11, 6); (5, 5)] /\ search m (mkTC 70 33 None) ts (words ts (first_n 18)) 18 (word_hash ts 18) 4 = Ok (Some (11, 6)) /\
  with_len ts 18 (repeats ts 18 (filed 16 18 (word_hash ts 18) (rev (words ts (first_n 11))))) = [(5, 5)] /\ search m (mkTC 70 33 None) ts (words ts (first_n 11)) 18 (word_hash ts 18) 4 = Ok (Some (5, 5)) /\
  search m (mkTC 70 33 (Some 32)) ts (words ts [0; 5]) 18 (word_hash ts 18) 4 = Ok (Some (5, 5)) /\ search m (mkTC 4 33 (Some 32)) ts (words ts [0]) 18 (word_hash ts 18) 4 = Ok (Some (0, 4)) /\
  search m (mkTC 70 0 (Some 32)) ts (words ts [0; 5]) 18 (word_hash ts 18) 4 = Ok None.
Proof. intro m. split; [apply legal_auto; lia|]. split; [apply first_ok; vm_compute; discriminate|]. destruct m; repeat split; vm_compute; reflexivity. Qed.
(** The newest repeat is not the longest: looking at one repeat finds 4 bytes, looking at two finds 6. *)
Definition ts2 : list Z := [97;98;99;100;101;102;1;97;98;99;100;2;97;98;99;100;101;102;3;4].
Example C105_more_is_longer_example : forall m,
  legal_trgt (mkTC 70 1 None) /\ legal_trgt (mkTC 70 33 None) /\ search m (mkTC 70 1 None) ts2 (words ts2 [0; 7]) 12 (word_hash ts2 12) 4 = Ok (Some (7, 4)) /\
  search m (mkTC 70 33 None) ts2 (words ts2 [0; 7]) 12 (word_hash ts2 12) 4 = Ok (Some (0, 6)) /\ search m (mkTC 4 33 None) ts2 (words ts2 [0; 7]) 12 (word_hash ts2 12) 4 = Ok (Some (7, 4)).
Proof. intro m. split; [apply legal_auto; lia|]. split; [apply legal_auto; lia|]. destruct m; repeat split; vm_compute; reflexivity. Qed.
Example C105_longest_found_example : forall m,
  legal_trgt (mkTC 70 33 None) /\ entries_ok 12 (words ts2 (first_n 12)) /\ zlen ts2 < 70 /\ zlen (words ts2 (first_n 12)) <= budget (mkTC 70 33 None) 4 /\
  Forall (fun e => 12 - snd e < chain_capacity (mkTC 70 33 None) ts2) (words ts2 (first_n 12)) /\
  hidden (index_bits (zlen ts2)) (word_hash ts2 12) (rev (words ts2 (first_n 12))) = false /\ search m (mkTC 70 33 None) ts2 (words ts2 (first_n 12)) 12 (word_hash ts2 12) 4 = Ok (Some (0, 6)).
Proof.
  intro m. split; [apply legal_auto; lia|]. split; [apply first_ok; vm_compute; discriminate|]. split; [vm_compute; reflexivity|]. split; [vm_compute; discriminate|]. split; [|destruct m; split; vm_compute; reflexivity].
  change (chain_capacity (mkTC 70 33 None) ts2) with 16. eapply Forall_impl; [|exact (proj2 (first_ok ts2 12 12 ltac:(vm_compute; discriminate)))]. cbv beta. lia.
Qed.
(** A target that starts with a run of six bytes, which the encoder skips: at position 18 it searches with the right checksum and finds the repeat of six bytes at 6. *)
Definition ts3 : list Z := [5;5;5;5;5;5] ++ ts2.
Fixpoint rounds (n : nat) (m : mode) (e : est) : res est := match n with O => Ok e | S n => if e_cur e + 4 <? zlen ts3 then do e <- estep m [] ts3 0 (zlen ts3) e; rounds n m e else Panic end.
Lemma rounds_visited m e0 : forall n e e', visited m [] ts3 0 (zlen ts3) e0 e -> rounds n m e = Ok e' -> visited m [] ts3 0 (zlen ts3) e0 e'.
Proof.
  induction n as [|n IH]; intros e e' V H; cbn [rounds] in H; [injection H as <-; exact V|]. destruct (e_cur e + 4 <? zlen ts3) eqn:E; [|discriminate]. apply bind_ok in H as (e1 & E1 & H). apply (IH e1); [|exact H]. apply (v_step _ _ _ _ _ _ e); [exact V|lia|exact E1].
Qed.
Example C105_every_search_example : forall m, exists t0 e t, trgt_build m (mkTC 70 33 None) ts3 0 = Ok t0 /\ visited m [] ts3 0 (zlen ts3) (mkE [] 0 4 0 0 StartNewMatch None (Some t0)) e /\ e_st e = TryMatch /\ e_cur e = 18 /\ e_cur e + 4 <= zlen ts3 /\ e_trgt e = Some t /\ find_best_trgt_match m t ts3 4 = Ok (Some (6, 6)).
Proof.
  intro m. destruct (trgt_build_total m (mkTC 70 33 None) ts3 (legal_auto 70 33 ltac:(lia)) ltac:(vm_compute; reflexivity)) as (t0 & E & _).
  assert (C : (do t0 <- trgt_build m (mkTC 70 33 None) ts3 0; do e <- rounds 23 m (mkE [] 0 4 0 0 StartNewMatch None (Some t0));
    match e_st e, e_trgt e with TryMatch, Some t => do r <- find_best_trgt_match m t ts3 4; Ok (e_cur e, r) | _, _ => Panic end) = Ok (18, Some (6, 6))) by (destruct m; vm_compute; reflexivity).
  rewrite E in C. cbn [bind] in C. apply bind_ok in C as (e & Er & C). destruct (e_st e) eqn:Es; try discriminate C. destruct (e_trgt e) as [t|] eqn:Et; [|discriminate C]. apply bind_ok in C as (r & Ef & C). injection C as C1 C2. subst r.
  exists t0, e, t. split; [exact E|]. split; [apply (rounds_visited m _ 23 (mkE [] 0 4 0 0 StartNewMatch None (Some t0))); [apply v_start|exact Er]|]. split; [exact Es|]. split; [exact C1|]. split; [rewrite C1; vm_compute; discriminate|]. split; [exact Et|exact Ef].
Qed.

(** What is hidden is missed, whatever the settings: here a newer word takes the slot of the word at 0, so its repeat of six bytes is not found at 8. *)
Definition th : list Z := [97;98;99;100;101;102;103;2;97;98;99;100;101;102;4;5].
Theorem C105_collision_hides : exists trgt cur p, p + 6 <= cur /\ cur + 6 <= zlen trgt /\ sub trgt p 6 = sub trgt cur 6 /\
  forall m c, legal_trgt c -> search m c trgt (words trgt (first_n (Z.to_nat cur))) cur (word_hash trgt cur) 4 = Ok None.
Proof.
  exists th, 8, 0. split; [lia|]. split; [vm_compute; discriminate|]. split; [reflexivity|]. intros m c L.
  destruct (C105_search_exact m c th L ltac:(vm_compute; reflexivity)) as (t0 & E & X). unfold search. rewrite E. cbn [bind].
  destruct (X (words th (first_n (Z.to_nat 8))) 8 (word_hash th 8) 4 (first_ok th (Z.to_nat 8) 8 ltac:(vm_compute; discriminate)) (small_range _) ltac:(lia) ltac:(vm_compute; discriminate)) as (t & S & Y). rewrite S. cbn [bind]. rewrite Y.
  assert (Hd : hidden (index_bits (zlen th)) (word_hash th 8) (rev (words th (first_n (Z.to_nat 8)))) = true) by (vm_compute; reflexivity). rewrite Hd. reflexivity.
Qed.
(** And at the level of whole patches "the higher the level the more accurate" does not mean smaller: on this target level 9 writes a larger patch than level 0. *)
Theorem C105_level_not_monotone : exists trgt, Forall is_byte trgt /\ forall m, exists c0 c9 p0 p9,
  config_level m 0 true None = Ok c0 /\ config_level m 9 true None = Ok c9 /\ (forall cd, encode m cd c0 None trgt = (p0, Ok tt)) /\ (forall cd, encode m cd c9 None trgt = (p9, Ok tt)) /\ zlen p0 < zlen p9.
Proof.
  exists [0; 0; 0; 0; 0; 0; 0; 1; 0; 1; 0; 0; 1; 0; 1; 1; 1; 0; 0; 1; 1; 0; 0; 0; 1; 0; 0; 0; 0; 0; 1; 0; 0; 1; 0; 1; 1; 1; 0; 1].
  split; [repeat (constructor; [unfold is_byte; lia|]); constructor|]. intro m. destruct m; do 4 eexists; (split; [vm_compute; reflexivity|]); (split; [vm_compute; reflexivity|]); (split; [intro cd; vm_compute; reflexivity|]); (split; [intro cd; vm_compute; reflexivity|]); vm_compute; reflexivity.
Qed.
Print Assumptions C105_search_exact.
Print Assumptions C105_every_search.
Print Assumptions C105_more_is_longer.
Print Assumptions C105_longest_found.
Print Assumptions C105_collision_hides.
Print Assumptions C105_level_not_monotone.
