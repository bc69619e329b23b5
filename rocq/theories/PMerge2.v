(** Proofs about smdiff-merger, continued: extraction, dereferencing, merging. *)
From Verif Require Import Base Spec MCommon MWriter MReader MDecoder MEncode MMerger SpecApi SpecMerge PBase PSection PDecoder PPatch PEncode PMerge.
Ltac Zify.zify_post_hook ::= idtac.
Arguments Z.add : simpl never.
Arguments Z.sub : simpl never.
Arguments Z.mul : simpl never.
Arguments Z.pow : simpl never.

Lemma number_snd : forall ops pos, map snd (number pos ops) = ops.
Proof. induction ops as [|o r IH]; intro pos; cbn; [reflexivity|]. now rewrite IH. Qed.
Lemma number_contig : forall ops pos, contiguous pos (number pos ops).
Proof. induction ops as [|o r IH]; intro pos; cbn; auto. Qed.
Lemma number_app : forall a pos b, number pos (a ++ b) = number pos a ++ number (pos + ops_len a) b.
Proof.
  induction a as [|o a IH]; intros pos b; cbn [app number]; [now replace (pos + ops_len []) with pos by (cbn; lia)|].
  rewrite IH, ops_len_cons. now replace (pos + op_len o + ops_len a) with (pos + (op_len o + ops_len a)) by lia.
Qed.
Lemma contig_number : forall l pos, contiguous pos l -> l = number pos (map snd l).
Proof. induction l as [|[q o] l IH]; intros pos H; [reflexivity|]. destruct H as [-> H]. cbn. f_equal. now apply IH. Qed.
Lemma slen_number ops pos : slen (number pos ops) = ops_len ops. Proof. unfold slen. now rewrite number_snd. Qed.

Lemma run_number dict : forall ops out0 out, Forall op_good ops -> run_ops dict out0 ops = Some out ->
  Forall (in_place dict out) (number (zlen out0) ops) /\ zlen out = zlen out0 + ops_len ops.
Proof.
  induction ops as [|o ops IH]; intros out0 out Hg H; cbn [run_ops] in H.
  - injection H as ->. cbn. split; [constructor|lia].
  - inversion Hg as [|? ? H1 H2]; subst. destruct (op_bytes dict out0 o) as [b|] eqn:E; [|discriminate].
    assert (Hb : zlen b = op_len o) by (apply (op_bytes_len dict out0 o b); [apply op_ok_nonneg, H1|exact E]).
    destruct (IH _ _ H2 H) as [Hp Hz]. rewrite zlen_app, Hb in *. rewrite ops_len_cons. split; [|lia]. cbn [number]. constructor; [|exact Hp].
    destruct (run_ops_prefix _ _ _ _ H) as (t & ->). rewrite !zlen_app in Hz. pose proof (good_oal _ H1). pose proof (zlen_nonneg out0). pose proof (zlen_nonneg t).
    assert (0 <= ops_len ops) by (apply ops_len_nonneg; now apply good_ok).
    unfold in_place. cbn [fst snd]. split; [exact H1|]. split; [lia|]. split; [rewrite !zlen_app; lia|].
    rewrite <- app_assoc. rewrite take_app by reflexivity. rewrite E. f_equal. rewrite sub_app_r by lia. rewrite Z.sub_diag. unfold sub.
    rewrite drop_0 by lia. now rewrite take_app by lia.
Qed.
Lemma pl_run dict out : forall l p, contiguous p l -> Forall (in_place dict out) l -> 0 <= p -> p + slen l = zlen out -> run_ops dict (take p out) (map snd l) = Some out.
Proof.
  induction l as [|[q o] l IH]; intros p Hc Hp H0 Hz.
  - unfold slen in Hz. cbn in *. rewrite take_all by lia. reflexivity.
  - destruct Hc as [-> Hc]. inversion Hp as [|? ? H1 H2]; subst. destruct H1 as (Hg & _ & He & Hb). cbn [fst snd map run_ops] in *. rewrite Hb.
    rewrite slen_cons in Hz. cbn [snd] in Hz. pose proof (good_oal _ Hg). rewrite <- take_split by lia. apply IH; auto; lia.
Qed.
Lemma pl_run0 dict out l : contiguous 0 l -> Forall (in_place dict out) l -> slen l = zlen out -> run_ops dict [] (map snd l) = Some out.
Proof. intros Hc Hp Hz. rewrite <- (take_0 0 out) by lia. apply pl_run; auto; lia. Qed.

(** ** place *)
Definition no_out (l : list sparse) : Prop := Forall (fun x => is_out_copy (snd x) = false) l.
Lemma pl_move dict mid out q o p : is_out_copy o = false -> in_place dict mid (q, o) -> 0 <= p -> p + op_len o <= zlen out ->
  sub out p (op_len o) = sub mid q (op_len o) -> in_place dict out (p, o).
Proof.
  intros Hno (Hg & Hq & He & Hb) Hp Hpe Hs. unfold in_place. cbn [fst snd] in *. split; [exact Hg|]. split; [exact Hp|]. split; [exact Hpe|].
  rewrite Hs, <- Hb. destruct o as [bs|b n|[] a n]; try reflexivity. discriminate.
Qed.
Lemma place_spec : forall l p, Forall (fun x => op_good (snd x)) l -> place l p = (number p (map snd l), p + slen l).
Proof.
  induction l as [|[q o] l IH]; intros p Hg; cbn [place map snd number].
  - unfold slen. cbn. now rewrite Z.add_0_r.
  - inversion Hg as [|? ? H1 H2]; subst. destruct (good_oal _ H1) as [E _]. cbn [snd] in *. rewrite E. rewrite IH by exact H2. rewrite slen_cons. cbn [snd].
    now rewrite Z.add_assoc.
Qed.
Lemma pls_good dict out l : Forall (in_place dict out) l -> Forall (fun x => op_good (snd x)) l.
Proof. intro H. eapply Forall_impl; [|exact H]. intros ? []; assumption. Qed.
Lemma pl_move_all dict mid out : forall l a p, contiguous a l -> no_out l -> Forall (in_place dict mid) l -> 0 <= a -> 0 <= p -> p + slen l <= zlen out ->
  sub out p (slen l) = sub mid a (slen l) -> Forall (in_place dict out) (number p (map snd l)).
Proof.
  induction l as [|[q o] l IH]; intros a p Hc Hno Hp Ha H0 Hz Hs; [constructor|]. destruct Hc as [-> Hc]. inversion Hno as [|? ? N1 N2]; subst.
  inversion Hp as [|? ? H1 H2]; subst. rewrite slen_cons in *. cbn [fst snd map number] in *. pose proof (good_oal _ (proj1 H1)) as [_ Hl]. cbn [snd] in Hl.
  pose proof (slen_nonneg _ (pls_good _ _ _ H2)) as Hsl. constructor.
  - apply (pl_move dict mid out a); auto; [lia|]. rewrite <- (take_sub out p (op_len o + slen l)), <- (take_sub mid a (op_len o + slen l)) by lia. now rewrite Hs.
  - apply (IH (a + op_len o)); auto; try lia.
    transitivity (sub (sub out p (op_len o + slen l)) (op_len o) (slen l)); [rewrite sub_sub by lia; reflexivity|]. rewrite Hs, sub_sub by lia. reflexivity.
Qed.
Lemma no_out_number : forall ops p, no_out (number p ops) <-> existsb is_out_copy ops = false.
Proof.
  unfold no_out. induction ops as [|o ops IH]; intro p; cbn [number existsb]; [split; [reflexivity|constructor]|]. rewrite orb_false_iff. split.
  - intro H. inversion H as [|? ? H1 H2]; subst. split; [exact H1|now apply (IH (p + op_len o))].
  - intros [H1 H2]. constructor; [exact H1|now apply IH].
Qed.
Lemma no_out_ops l : no_out l <-> existsb is_out_copy (map snd l) = false.
Proof.
  unfold no_out. induction l as [|[q o] l IH]; cbn [map snd existsb]; [split; [reflexivity|constructor]|]. rewrite orb_false_iff, <- IH. split.
  - intro H. inversion H as [|? ? H1 H2]; subst. auto.
  - intros [H1 H2]. constructor; assumption.
Qed.
Lemma kind_out a b : kind a = kind b -> is_out_copy a = is_out_copy b.
Proof. destruct a as [|?|[]], b as [|?|[]]; cbn; congruence. Qed.
Lemma kind_dict a b : kind a = kind b -> is_dict_copy a = is_dict_copy b.
Proof. destruct a as [|?|[]], b as [|?|[]]; cbn; congruence. Qed.
Lemma no_out_kinds l r : kinds_in l r -> no_out l -> no_out r.
Proof.
  intros Hk Hn. apply Forall_forall. intros x Hx. destruct (Hk x Hx) as (y & Hy & E). rewrite <- (kind_out _ _ E). unfold no_out in Hn.
  rewrite Forall_forall in Hn. now apply Hn.
Qed.

(** ** deref_copy_o *)
Lemma deref_loop_spec m dict out : zlen dict < 2 ^ 64 -> zlen out < 2 ^ 64 -> forall ext output, Forall (in_place dict out) ext -> contiguous (slen output) ext ->
  contiguous 0 output -> Forall (in_place dict out) output -> no_out output ->
  exists r, deref_loop m ext output (slen output) = Ok r /\ contiguous 0 r /\ Forall (in_place dict out) r /\ no_out r /\ slen r = slen output + slen ext /\
    existsb is_dict_copy (map snd r) = existsb is_dict_copy (map snd output) || existsb is_dict_copy (map snd ext).
Proof.
  intros Hd Ho. induction ext as [|[q o] ext IH]; intros output Hp Hc Hc0 Hpo Hno; cbn [deref_loop].
  - exists output. repeat split; auto; [unfold slen; cbn; lia|]. cbn. now rewrite orb_false_r.
  - destruct Hc as [-> Hc]. inversion Hp as [|? ? H1 H2]; subst. pose proof (slen_nonneg _ (pls_good _ _ _ Hpo)) as Hsl.
    assert (HR : exists res, match o with Copy Output a n => do r <- get_exact_slice m output a n; match r with Some l => Ok l | None => Panic end | _ => Ok [(0, o)] end = Ok res /\
       Forall (fun x => op_good (snd x)) res /\ slen res = op_len o /\ no_out res /\ Forall (in_place dict out) (number (slen output) (map snd res)) /\
       (existsb is_dict_copy (map snd output) || existsb is_dict_copy (map snd res)) = (existsb is_dict_copy (map snd output) || is_dict_copy o)).
    { assert (HN : is_out_copy o = false -> exists res, Ok [(0, o)] = Ok res /\
       Forall (fun x => op_good (snd x)) res /\ slen res = op_len o /\ no_out res /\ Forall (in_place dict out) (number (slen output) (map snd res)) /\
       (existsb is_dict_copy (map snd output) || existsb is_dict_copy (map snd res)) = (existsb is_dict_copy (map snd output) || is_dict_copy o)).
      { intro Hn. exists [(0, o)]. split; [reflexivity|]. split; [constructor; [apply H1|constructor]|]. split; [unfold slen; cbn; lia|].
        split; [constructor; [exact Hn|constructor]|]. split; [constructor; [exact H1|constructor]|]. cbn. now rewrite orb_false_r. }
      destruct o as [bs|b n|[] a n]; try (apply HN; reflexivity). clear HN.
      destruct H1 as (Hg & _ & He & Hb). cbn [fst snd op_len op_bytes] in *. pose proof (good_oal _ Hg) as [_ Hl]. cbn [op_len] in Hl.
      destruct (in_range (take (slen output) out) a n) eqn:E; [|discriminate]. injection Hb as Hb. apply in_range_iff in E as [Ha Han]; [|lia].
      rewrite zlen_take in Han by lia. pose proof (exact_slice_spec m dict out output a n Hd Ho Hc0 Hpo Ha ltac:(lia)) as HE.
      replace (a + n <=? slen output) with true in HE by lia. destruct HE as (r & -> & C & P & L & K & N). cbn [bind]. exists r. split; [reflexivity|].
      split; [now apply pls_good in P|]. split; [exact L|]. pose proof (no_out_kinds _ _ K Hno) as Hnr. split; [exact Hnr|]. split.
      - apply (pl_move_all dict out out r a); auto; rewrite ?L; try lia. rewrite <- Hb. rewrite take_is_sub. rewrite sub_sub by lia. reflexivity.
      - cbn [is_dict_copy]. rewrite orb_false_r. destruct (existsb is_dict_copy (map snd output)) eqn:Ex; [reflexivity|]. cbn [orb].
        apply not_true_is_false. intro Hc'. apply existsb_exists in Hc' as (x & Hin & Hx). apply in_map_iff in Hin as (y & <- & Hy).
        destruct (K y Hy) as (z & Hz & Ez). assert (existsb is_dict_copy (map snd output) = true); [|congruence].
        apply existsb_exists. exists (snd z). split; [now apply in_map|]. now rewrite (kind_dict _ _ Ez). }
    destruct HR as (res & -> & Hgr & Lr & Nr & Pr & Dr). cbn [bind]. rewrite place_spec by exact Hgr.
    assert (Esl : slen output + slen res = slen (output ++ number (slen output) (map snd res))) by (rewrite slen_app, slen_number; reflexivity).
    rewrite Esl. destruct (IH (output ++ number (slen output) (map snd res))) as (r & E & C & P & N & L & D).
    + exact H2.
    + rewrite <- Esl, Lr. exact Hc.
    + apply contig_app. split; [exact Hc0|apply number_contig].
    + apply Forall_app. split; [exact Hpo|exact Pr].
    + apply Forall_app. split; [exact Hno|]. apply no_out_number. now apply no_out_ops.
    + exists r. split; [exact E|]. split; [exact C|]. split; [exact P|]. split; [exact N|]. split; [rewrite L, <- Esl, slen_cons; cbn [snd]; lia|].
      rewrite D, map_app, existsb_app, number_snd, Dr. cbn [map snd existsb]. now rewrite orb_assoc.
Qed.
Lemma deref_spec m dict ops out : zlen dict < 2 ^ 64 -> zlen out < 2 ^ 64 -> Forall op_good ops -> run_ops dict [] ops = Some out ->
  exists r, deref_copy_o m (number 0 ops) = Ok r /\ contiguous 0 r /\ Forall (in_place dict out) r /\ no_out r /\ slen r = zlen out /\
    existsb is_dict_copy (map snd r) = existsb is_dict_copy ops.
Proof.
  intros Hd Ho Hg Hr. destruct (run_number dict ops [] out Hg Hr) as [Hp Hz]. rewrite (@zlen_nil Z) in *.
  destruct (deref_loop_spec m dict out Hd Ho (number 0 ops) [] Hp) as (r & E & C & P & N & L & D); try (now constructor).
  { apply number_contig. }
  exists r. split; [exact E|]. split; [exact C|]. split; [exact P|]. split; [exact N|]. split; [rewrite L, slen_number, Hz; unfold slen; cbn; lia|].
  rewrite D, number_snd. reflexivity.
Qed.

(** ** merge *)
Lemma find_mergeable_ops : forall l l' i, map snd l = map snd l' -> find_mergeable l i = find_mergeable l' i.
Proof. induction l as [|[q o] l IH]; intros [|[q' o'] l'] i H; cbn in *; try discriminate; [reflexivity|]. injection H as -> H. f_equal. now apply IH. Qed.
Lemma find_mergeable_app : forall a b i, find_mergeable (a ++ b) i = find_mergeable a i ++ find_mergeable b (i + zlen a).
Proof.
  induction a as [|[q o] a IH]; intros b i; cbn [app find_mergeable]; [now replace (i + zlen []) with i by (rewrite zlen_nil; lia)|].
  rewrite IH, zlen_cons, app_assoc. now replace (i + 1 + zlen a) with (i + (1 + zlen a)) by lia.
Qed.
Lemma find_mergeable_nil : forall l i, find_mergeable l i = [] <-> existsb is_dict_copy (map snd l) = false.
Proof.
  induction l as [|[q o] l IH]; intro i; cbn [find_mergeable map snd existsb]; [tauto|]. rewrite orb_false_iff, <- (IH (i + 1)).
  destruct (is_dict_copy o); cbn; split; intros; try discriminate; try tauto. destruct H; discriminate.
Qed.
Fixpoint keys_from {A} (lo : Z) (l : list (Z * A)) : Prop := match l with [] => True | x :: r => lo <= fst x /\ keys_from (fst x + 1) r end.
Lemma keys_from_le {A} (l : list (Z * A)) lo lo' : lo' <= lo -> keys_from lo l -> keys_from lo' l.
Proof. destruct l; cbn; [trivial|]. intros ? []. split; [lia|assumption]. Qed.
Lemma sort_id {A} (l : list (Z * A)) : forall lo, keys_from lo l -> sort_by_key l = l.
Proof.
  induction l as [|x l IH]; intros lo H; [reflexivity|]. destruct H as [_ H]. unfold sort_by_key in *. cbn [fold_right]. rewrite (IH _ H).
  destruct l as [|y l]; [reflexivity|]. destruct H as [H _]. cbn [insert_sorted]. now replace (fst x <=? fst y) with true by lia.
Qed.
Lemma expand_cons ins q o t i pos : keys_from (i + 1) ins -> expand_loop ((q, o) :: t) ins i pos = (pos, o) :: expand_loop t ins (i + 1) (pos + oal o).
Proof.
  intro H. destruct ins as [|[ip v] ins]; cbn [expand_loop].
  - cbn [place]. destruct (place t (pos + oal o)). reflexivity.
  - destruct H as [H _]. cbn [fst] in H.
    assert (E : take (ip - i) ((q, o) :: t) = (q, o) :: take (ip - (i + 1)) t) by (unfold take; replace (Z.to_nat (ip - i)) with (S (Z.to_nat (ip - (i + 1)))) by lia; reflexivity).
    assert (E2 : drop (ip - i) ((q, o) :: t) = drop (ip - (i + 1)) t) by (unfold drop; replace (Z.to_nat (ip - i)) with (S (Z.to_nat (ip - (i + 1)))) by lia; reflexivity).
    rewrite E, E2. cbn [place]. destruct (place (take (ip - (i + 1)) t) (pos + oal o)) as [l1 p1]. destruct (place v p1) as [l2 p2]. cbn [app].
    rewrite zlen_cons. now replace (i + (1 + zlen (take (ip - (i + 1)) t)) + 1) with (i + 1 + zlen (take (ip - (i + 1)) t) + 1) by lia.
Qed.

Lemma merge_loop_spec m src mid out T P : zlen src < 2 ^ 64 -> zlen mid < 2 ^ 64 -> zlen T < 2 ^ 63 ->
  contiguous 0 P -> Forall (in_place src mid) P -> no_out P -> slen P = zlen mid ->
  forall t2 t1 shift, T = t1 ++ t2 -> contiguous (slen t1) t2 -> Forall (in_place mid out) t2 -> no_out t2 -> 0 <= slen t1 ->
  exists ix ins, merge_loop m T P (find_mergeable t2 (zlen t1)) shift = Ok (ix, ins) /\ keys_from (zlen t1) ins /\
    let e := expand_loop t2 ins (zlen t1) (slen t1) in
    contiguous (slen t1) e /\ Forall (in_place src out) e /\ no_out e /\ slen e = slen t2 /\ ix = find_mergeable e (zlen t1 + shift).
Proof.
  intros Hs Hm HT Hc Hp Hno HP. induction t2 as [|[q o] t2 IH]; intros t1 shift ET Hc2 Hp2 Hn2 Hz1.
  - exists [], []. cbn. repeat split; constructor.
  - destruct Hc2 as [-> Hc2]. inversion Hp2 as [|? ? H1 H2]; subst. inversion Hn2 as [|? ? N1 N2]; subst. cbn [snd] in N1.
    pose proof (good_oal _ (proj1 H1)) as [Eo Hl]. cbn [snd] in Eo, Hl.
    assert (Esl : slen (t1 ++ [(slen t1, o)]) = slen t1 + op_len o) by (rewrite slen_app; unfold slen at 2; cbn; lia).
    assert (Ezl : zlen (t1 ++ [(slen t1, o)]) = zlen t1 + 1) by (rewrite zlen_app; reflexivity).
    rewrite <- Esl in Hc2. cbn [find_mergeable]. destruct (is_dict_copy o) eqn:Ed.
    + destruct o as [|?|[] a n]; try discriminate. cbn [app merge_loop].
      assert (Ei : idx (t1 ++ (slen t1, Copy Dict a n) :: t2) (zlen t1) = Ok (slen t1, Copy Dict a n)).
      { unfold idx. pose proof (zlen_nonneg t1). replace (zlen t1 <? 0) with false by lia. unfold zlen. rewrite Nat2Z.id. rewrite nth_error_app2 by lia. now rewrite Nat.sub_diag. }
      rewrite Ei. cbn [bind snd]. replace (debug_assert_ m true) with (@Ok unit tt) by (destruct m; reflexivity). cbn [bind].
      destruct H1 as (Hg & _ & He & Hb). cbn [fst snd op_len op_bytes] in *. destruct (in_range mid a n) eqn:E; [|discriminate].
      injection Hb as Hb. apply in_range_iff in E as [Ha Han]; [|lia].
      pose proof (exact_slice_spec m src mid P a n Hs Hm Hc Hp Ha ltac:(lia)) as HE. replace (a + n <=? slen P) with true in HE by lia.
      destruct HE as (r & -> & C & Pr & L & K & N). cbn [bind].
      assert (Hr1 : 1 <= zlen r) by (destruct r; [contradiction|rewrite zlen_cons; pose proof (zlen_nonneg r); lia]).
      assert (Hgr := pls_good _ _ _ Pr).
      assert (Hr2 : zlen r < 2 ^ 64).
      { assert (zlen r <= slen r). { clear -Hgr. induction Hgr as [|x l H _ IH]; [unfold slen, zlen; cbn; lia|]. rewrite zlen_cons, slen_cons. pose proof (good_oal _ H). lia. } lia. }
      rewrite usub_ok by lia. cbn [bind].
      destruct (IH (t1 ++ [(slen t1, Copy Dict a n)]) (shift + (zlen r - 1))) as (ix & ins & E1 & Hk & C1 & P1 & N1' & L1 & X1); auto; try (rewrite Esl; lia).
      { rewrite <- app_assoc. reflexivity. }
      rewrite Ezl in *. rewrite E1. cbn [bind]. eexists; eexists. split; [reflexivity|]. split; [cbn [keys_from fst]; split; [lia|exact Hk]|].
      cbv zeta. cbn [expand_loop]. rewrite Z.sub_diag. rewrite (take_0 0), (drop_0 0) by lia. cbn [place]. rewrite place_spec by exact Hgr. rewrite L.
      cbn [app]. rewrite (@zlen_nil (Z * op)). replace (zlen t1 + 0 + 1) with (zlen t1 + 1) by lia. change (drop 1 ((slen t1, Copy Dict a n) :: t2)) with t2.
      rewrite Esl in *. cbn [op_len] in *. set (e := expand_loop t2 ins (zlen t1 + 1) (slen t1 + n)) in *.
      assert (Hnr := no_out_kinds _ _ K Hno). repeat split.
      * apply contig_app. split; [apply number_contig|]. rewrite slen_number. fold (slen r). rewrite L. exact C1.
      * apply Forall_app. split; [|exact P1]. apply (pl_move_all src mid out r a); auto; rewrite ?L; try lia. now symmetry.
      * apply Forall_app. split; [|exact N1']. apply no_out_number. now apply no_out_ops.
      * rewrite slen_app, slen_number, slen_cons. fold (slen r). cbn [snd op_len]. lia.
      * rewrite find_mergeable_app. f_equal; [apply find_mergeable_ops; now rewrite number_snd|]. rewrite X1. f_equal.
        assert (zlen (number (slen t1) (map snd r)) = zlen r) by (rewrite <- (zlen_map snd (number _ _)), number_snd, zlen_map; reflexivity). lia.
    + destruct (IH (t1 ++ [(slen t1, o)]) shift) as (ix & ins & E1 & Hk & C1 & P1 & N1' & L1 & X1); auto; try (rewrite Esl; lia).
      { rewrite <- app_assoc. reflexivity. }
      rewrite Ezl in *. cbn [app]. rewrite E1. exists ix, ins. split; [reflexivity|]. split; [eapply keys_from_le; [|exact Hk]; lia|].
      cbv zeta. rewrite expand_cons by exact Hk. rewrite Eo, <- Esl. set (e := expand_loop t2 ins (zlen t1 + 1) (slen (t1 ++ [(slen t1, o)]))) in *. repeat split.
      * rewrite <- Esl. exact C1.
      * constructor; [|exact P1]. destruct H1 as (Hg & Hq & He & Hb). unfold in_place. cbn [fst snd] in *. split; [exact Hg|]. split; [exact Hq|]. split; [exact He|].
        rewrite <- Hb. destruct o as [|?|[]]; try discriminate; reflexivity.
      * constructor; [exact N1|exact N1'].
      * rewrite !slen_cons. cbn [snd]. lia.
      * cbn [find_mergeable]. rewrite Ed. cbn [app]. rewrite X1. f_equal. lia.
Qed.
