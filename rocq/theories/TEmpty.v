(** Property C112: operations that produce nothing. The format can express them (a size of 0 in the two-byte form), the reader accepts them, other writers may emit them. *)
From Verif Require Import Base Spec SpecEnc MCommon MWriter MReader MDecoder MOpMaker MTrgtMatcher MSrcMatcher MEncInner MEncode MMerger MTranscoder
  SpecApi SpecMerge PBase PStream PSection PWriter PDecoder PPatch POpMaker PEncode PTotal2 PMerge PMerge2 PMerge3 PMerge4 PMerge5 PMerge6 PTrans PMode PRobust TEncode TApply TMerge TTrans TMode TUntrust TWrong.
Ltac Zify.zify_post_hook ::= idtac.
Arguments Z.add : simpl never.
Arguments Z.sub : simpl never.
Arguments Z.mul : simpl never.
Arguments Z.pow : simpl never.

(** ** Specification *)
(** The operations without the empty ones. *)
Definition without_empty (ops : list op) : list op := filter (fun o => negb (op_len o =? 0)) ops.
(** The operations of a patch, rewritten without copies from the output, are fewer than 64 bits count (they are held in memory). *)
Definition fits_memory (ops : list op) : Prop := zlen ops < 2 ^ 64 /\ forall l, deref_copy_o Release (number 0 ops) = Ok l -> zlen l < 2 ^ 64.
(** Patches (newest first) of any origin that, applied oldest first, turn [src] into [out]; [Q s ops] holds for each patch, [ops] its operations and [s] what it is applied to. *)
Inductive any_chain (cd : codecs) (Q : list Z -> list op -> Prop) : list Z -> list (list Z) -> list Z -> Prop :=
| ac_nil x : any_chain cd Q x [] x
| ac_cons src mid out p older ops : any_chain cd Q src older mid -> Forall is_byte p -> applies Release cd p mid out -> reads_as Release cd p ops ->
    zlen mid < 2 ^ 63 -> zlen out < 2 ^ 63 -> fits_memory ops -> Q mid ops -> any_chain cd Q src (p :: older) out.
(** Copies, also the empty ones, start inside what they copy from; if all copies are empty, copies from the output may be anywhere. *)
Definition starts_inside (s : list Z) (ops : list op) : Prop :=
  (bytes_of is_copy ops = 0 \/ out_fit 0 ops = true) /\ forall a n, In (Copy Dict a n) ops -> a < zlen s.

(** A legal operation, or a run of length 0 (which the format cannot express). *)
Definition nearly_legal (o : op) : Prop := op_ok o \/ exists b, is_byte b /\ o = Run b 0.

(** ** Executing *)
Lemma perform_without src old : forall ops o, Forall op_ok ops -> perform src old o (without_empty ops) = perform src old o ops.
Proof.
  unfold without_empty. induction ops as [|x ops IH]; intros o H; [reflexivity|]. inversion H as [|? ? H1 H2]; subst. cbn [filter]. destruct (op_len x =? 0) eqn:E; cbn [negb perform].
  - rewrite empty_bytes by (try (now apply ok_loose); lia). rewrite app_nil_r. now apply IH.
  - destruct (op_bytes src (over o old) x); [now apply IH|reflexivity].
Qed.
Lemma run_without d : forall ops o, Forall op_ok ops -> run_ops d o (without_empty ops) = run_ops d o ops.
Proof.
  unfold without_empty. induction ops as [|x ops IH]; intros o H; [reflexivity|]. inversion H as [|? ? H1 H2]; subst. cbn [filter]. destruct (op_len x =? 0) eqn:E; cbn [negb run_ops].
  - rewrite empty_bytes by (try (now apply ok_loose); lia). rewrite app_nil_r. now apply IH.
  - destruct (op_bytes d o x); [now apply IH|reflexivity].
Qed.
Lemma without_ok ops : Forall op_ok ops -> Forall op_ok (without_empty ops).
Proof. intro H. apply Forall_forall. intros x Hx. unfold without_empty in Hx. apply filter_In in Hx as [Hx _]. rewrite Forall_forall in H. auto. Qed.
(** C112. Empty operations do nothing, wherever the empty copies point: two patches, of which one has the operations of the other without the empty ones, do the same to every source and
    every output: same bytes, same position, same success or error. *)
Theorem C112_empty_operations_do_nothing : forall m cd patch patch' ops src old p, codecs_bytes cd -> codecs_shrink cd -> Forall is_byte patch ->
  reads_as m cd patch ops -> reads_as m cd patch' (without_empty ops) ->
  apply_patch m cd patch (Some src) (mkSink old p) = apply_patch m cd patch' (Some src) (mkSink old p) /\
  (forall d o, run_ops d o (without_empty ops) = run_ops d o ops).
Proof.
  intros m cd patch patch' ops src old p Hc Hsh Hb HR HR'. assert (Hok : Forall op_ok ops) by (destruct HR as (secs & r & Hp & ->); apply (patch_read_typed m cd Hc _ _ _ Hp Hb)).
  split; [|intros d o; now apply run_without].
  rewrite (apply_perform m cd patch src ops old p Hsh HR (ops_ok_nonneg _ Hok)). rewrite (apply_perform m cd patch' src (without_empty ops) old p Hsh HR' (ops_ok_nonneg _ (without_ok _ Hok))).
  now rewrite perform_without.
Qed.

(** ** Merging *)
Definition any_merger (mid out : list Z) (g : merger) : Prop :=
  contiguous 0 (mg_patch g) /\ Forall (placed mid out) (mg_patch g) /\ quiet (mg_patch g) /\ slen (mg_patch g) = zlen out /\ mg_copies g = find_mergeable (mg_patch g) 0.
Definition any_merged (src out : list Z) (r : merged) : Prop :=
  match r with
  | Open g => any_merger src out g
  | Summary ops => Forall nearly_legal ops /\ Forall (fun o => is_copy o = true -> op_len o = 0) ops /\ forall d, run_ops d [] ops = Some out
  end.
Lemma nearly_loose o : nearly_legal o -> loose o.
Proof. intros [H|(b & H & ->)]; [now apply ok_loose|]. split; cbn [op_typed op_len]; [split; [exact H|lia]|lia]. Qed.
Lemma nearly_looses ops : Forall nearly_legal ops -> Forall loose ops.
Proof. apply Forall_impl. exact nearly_loose. Qed.
Lemma placed_nearly d o x : placed d o x -> nearly_legal (snd x).
Proof.
  intros (H1 & _ & _ & H2). pose proof (loose_oal _ H1) as [_ Hl]. destruct (Z.eq_dec (op_len (snd x)) 0) as [E|N]; [|left; apply (H2 ltac:(lia))].
  destruct x as [q [bs|b n|s a n]]; cbn [snd op_len] in *; destruct H1 as [Ht Hlg]; cbn [op_typed op_len] in *; [left; split; cbn; [exact Ht|lia]|right; exists b; split; [apply Ht|now subst]|left; split; cbn; lia].
Qed.
Lemma placed_nearly_all d o l : Forall (placed d o) l -> Forall nearly_legal (map snd l).
Proof. intro H. apply Forall_map. eapply Forall_impl; [|exact H]. apply placed_nearly. Qed.
Lemma run_any d d' : forall ops o, Forall loose ops -> Forall (fun o => is_copy o = true -> op_len o = 0) ops -> run_ops d o ops = run_ops d' o ops.
Proof.
  induction ops as [|x ops IH]; intros o Hl H; [reflexivity|]. inversion Hl as [|? ? L1 L2]; subst. inversion H as [|? ? H1 H2]; subst. cbn [run_ops].
  replace (op_bytes d o x) with (op_bytes d' o x); [destruct (op_bytes d' o x); [now apply IH|reflexivity]|].
  destruct (is_copy x) eqn:E; [rewrite !empty_bytes by auto; reflexivity|]. destruct x; try reflexivity. discriminate.
Qed.
Lemma bytes_copies0 ops : Forall op_ok ops -> bytes_of is_copy ops = 0 -> Forall (fun o => is_copy o = true -> op_len o = 0) ops.
Proof.
  induction 1 as [|x ops H1 H2 IH]; intro E; [constructor|]. pose proof (bytes_of_nonneg is_copy ops H2) as Hn. pose proof (loose_oal _ (ok_loose _ H1)) as [_ Hl]. unfold bytes_of in *. cbn [filter] in E.
  destruct (is_copy x) eqn:Ex; [rewrite ops_len_cons in E|]; constructor; try (apply IH; lia); [lia|congruence].
Qed.
Lemma copy_out_or_dict o : is_copy o = is_dict_copy o || is_out_copy o. Proof. destruct o as [|?|[]]; reflexivity. Qed.
Lemma quiet_zero ops p : Forall (fun o => is_copy o = true -> op_len o = 0) ops -> quiet (number p ops).
Proof. intro H. apply quiet_number. eapply Forall_impl; [|exact H]. intros o Ho E. apply Ho. rewrite copy_out_or_dict, E. apply orb_true_r. Qed.
Lemma inside_in src ops : (forall a n, In (Copy Dict a n) ops -> a < zlen src) -> Forall (fun o => inside src (0, o)) ops.
Proof. intro H. apply Forall_forall. intros x Hx. unfold inside. cbn [snd]. destruct x as [|?|[] a n]; auto. exact (H a n Hx). Qed.
Lemma inside_number src ops p : Forall (fun o => inside src (0, o)) ops -> Forall (inside src) (number p ops).
Proof. intro H. apply inside_ops. now rewrite number_snd. Qed.

Definition any_open (src : list Z) (r : merged) : Prop := match r with Open g => Forall (inside src) (mg_patch g) | Summary _ => True end.
Lemma new_any cd patch src out ops r : zlen src < 2 ^ 63 -> zlen out < 2 ^ 63 -> applies Release cd patch src out -> reads_as Release cd patch ops -> Forall op_ok ops ->
  merger_new Release cd patch = Ok r -> any_merged src out r /\ ((forall a n, In (Copy Dict a n) ops -> a < zlen src) -> any_open src r).
Proof.
  intros Hs Ho HA HR Hok H. destruct (applies_extract _ _ _ _ _ _ HA HR Hok) as [HE Hrun]. unfold merger_new in H. rewrite HE in H. cbn [bind] in H.
  rewrite stats_fold in H by exact Hok. cbn [st_copy_bytes stats_new] in H. destruct (0 + 2 * bytes_of is_copy ops =? 0) eqn:E.
  - rewrite number_snd in H. injection H as <-. pose proof (bytes_copies0 ops Hok ltac:(lia)) as Hz. split; [|intros _; exact I].
    split; [eapply Forall_impl; [|exact Hok]; intros o Hx; now left|]. split; [exact Hz|]. intro d. rewrite (run_any d src); auto. now apply loose_all_ok.
  - apply bind_ok in H as (t & Ed & H). cbn [debug_assert_ bind] in H. injection H as <-. destruct (run_placed src ops [] out Hok Hrun) as [Hp Hz]. rewrite (@zlen_nil Z) in *.
    unfold deref_copy_o in Ed. destruct (deref_loop_placed src out ltac:(lia) ltac:(lia) (number 0 ops) [] t Hp (number_contig ops 0) I (Forall_nil _) (Forall_nil _) Ed) as (C & P & N & L & HI).
    split.
    + split; [exact C|]. split; [exact P|]. split; [now apply quiet_no_out|]. split; [|reflexivity]. cbn [mg_patch]. rewrite L, slen_number. change (slen []) with 0. lia.
    + intro Hin. cbn [any_open mg_patch]. apply HI; [|constructor]. now apply inside_number, inside_in.
Qed.
Lemma merge_any cd g patch src mid out ops r : zlen src < 2 ^ 63 -> zlen mid < 2 ^ 63 -> zlen out < 2 ^ 63 -> any_merger mid out g -> applies Release cd patch src mid ->
  reads_as Release cd patch ops -> Forall op_ok ops -> fits_memory ops -> merger_merge Release cd g patch = Ok r ->
  any_merged src out r /\ ((forall a n, In (Copy Dict a n) ops -> a < zlen src) -> any_open src r).
Proof.
  intros Hs Hm Ho (C & P & Q & L & X) HA HR Hok (Fm1 & Fm2) H. destruct (applies_extract _ _ _ _ _ _ HA HR Hok) as [HE Hrun]. unfold merger_merge in H. cbn [debug_assert_ bind] in H.
  rewrite HE in H. cbn [bind] in H. rewrite stats_fold in H by exact Hok. cbn [st_copy_bytes stats_new] in H. apply bind_ok in H as (pr & Ed & H). apply bind_ok in H as ([ix ins] & Em & H).
  destruct (run_placed src ops [] mid Hok Hrun) as [Hp Hz]. rewrite (@zlen_nil Z) in *.
  assert (HP : contiguous 0 pr /\ Forall (placed src mid) pr /\ quiet pr /\ slen pr = zlen mid /\ zlen pr < 2 ^ 64 /\ ((forall a n, In (Copy Dict a n) ops -> a < zlen src) -> Forall (inside src) pr)).
  { destruct (0 + 2 * bytes_of is_copy ops >? 0) eqn:E.
    - specialize (Fm2 _ Ed). unfold deref_copy_o in Ed. destruct (deref_loop_placed src mid ltac:(lia) ltac:(lia) (number 0 ops) [] pr Hp (number_contig ops 0) I (Forall_nil _) (Forall_nil _) Ed) as (C1 & P1 & N1 & L1 & HI).
      split; [exact C1|]. split; [exact P1|]. split; [now apply quiet_no_out|]. split; [rewrite L1, slen_number; change (slen []) with 0; lia|]. split; [exact Fm2|].
      intro Hin. apply HI; [|constructor]. now apply inside_number, inside_in.
    - injection Ed as <-. split; [apply number_contig|]. split; [exact Hp|]. pose proof (bytes_of_nonneg is_copy ops Hok).
      split; [apply quiet_zero, bytes_copies0; [exact Hok|lia]|]. split; [rewrite slen_number; lia|].
      split; [rewrite <- (zlen_map snd), number_snd; exact Fm1|]. intro Hin. now apply inside_number, inside_in. }
  destruct HP as (C1 & P1 & Q1 & L1 & Z1 & HI1). rewrite X in Em.
  destruct (merge_loop_placed src mid out (mg_patch g) pr ltac:(lia) ltac:(lia) Z1 C1 P1 Q1 L1 (mg_patch g) [] 0 ix ins eq_refl C P Q ltac:(unfold slen; cbn; lia) Em) as (K & C2 & P2 & Q2 & L2 & X2 & I2).
  change (zlen (@nil sparse)) with 0 in *. change (slen []) with 0 in *.
  assert (Ee : expand_to (mg_patch g) ins = expand_loop (mg_patch g) ins 0 0) by (unfold expand_to; rewrite (sort_id ins 0 K); reflexivity).
  rewrite Ee in H. set (e := expand_loop (mg_patch g) ins 0 0) in *. destruct (zlen ix =? 0) eqn:Ez; injection H as <-.
  - split; [|intros _; exact I]. assert (Hnd : existsb is_dict_copy (map snd e) = false) by (apply (find_mergeable_nil e (0 + 0)); rewrite <- X2; apply zlen_0; lia).
    assert (Hlo : Forall loose (map snd e)) by (apply looses_ops; now apply placed_looses in P2).
    assert (Hz2 : Forall (fun o => is_copy o = true -> op_len o = 0) (map snd e)).
    { apply quiet_ops in Q2. rewrite Forall_forall in *. intros x Hx Hcp. apply Q2; [exact Hx|]. rewrite copy_out_or_dict in Hcp. destruct (is_dict_copy x) eqn:Ex; [|exact Hcp].
      assert (existsb is_dict_copy (map snd e) = true) by (apply existsb_exists; eauto). congruence. }
    split; [now apply placed_nearly_all in P2|]. split; [exact Hz2|]. intro d. rewrite (run_any d src) by assumption. apply placed_run0; auto; lia.
  - split; [|intro Hin; cbn [any_open mg_patch]; auto]. split; [exact C2|]. split; [exact P2|]. split; [exact Q2|]. cbn [mg_patch mg_copies]. split; [lia|exact X2].
Qed.
Lemma chain_ok cd Q src ps out : codecs_bytes cd -> any_chain cd Q src ps out -> zlen src < 2 ^ 63 -> zlen out < 2 ^ 63.
Proof. intros _ H. destruct H; auto. Qed.
Lemma any_summary src out r : any_merged src out r -> run_ops src [] (summary_of r) = Some out /\ Forall nearly_legal (summary_of r) /\ Forall (fun o => is_out_copy o = true -> op_len o = 0) (summary_of r).
Proof.
  destruct r as [g|ops]; cbn [any_merged summary_of].
  - intros (C & P & Q & L & _). split; [now apply placed_run0|]. split; [now apply placed_nearly_all in P|now apply quiet_ops].
  - intros (H1 & H2 & H3). split; [apply H3|]. split; [exact H1|]. eapply Forall_impl; [|exact H2]. intros o Ho E. apply Ho. now rewrite copy_out_or_dict, E, orb_true_r.
Qed.
Lemma more_any cd Q : codecs_bytes cd -> forall older src mid, any_chain cd Q src older mid -> forall out g r, zlen src < 2 ^ 63 -> zlen out < 2 ^ 63 -> any_merger mid out g ->
  merge_more Release cd g older = Ok r -> any_merged src out r.
Proof.
  intro Hcb. induction older as [|p older IH]; intros src mid Hch out g r Hs Ho Hg H; inversion Hch as [|? mid' ? ? ? ops Hch' Hb HA HR Hm1 Hm2 Hf HQ]; subst; cbn [merge_more] in H.
  - injection H as <-. exact Hg.
  - apply bind_ok in H as (r1 & E & H). assert (Hok : Forall op_ok ops) by (destruct HR as (secs & r' & Hp & ->); apply (patch_read_typed Release cd Hcb _ _ _ Hp Hb)).
    destruct (merge_any cd g p mid' mid out ops r1 Hm1 Hm2 Ho Hg HA HR Hok Hf E) as [M _]. destruct r1 as [g'|ops'].
    + eapply IH; eassumption.
    + injection H as <-. destruct M as (M1 & M2 & M3). split; [exact M1|]. split; [exact M2|]. exact M3.
Qed.
Lemma from_any cd Q newest older src out r : codecs_bytes cd -> any_chain cd Q src (newest :: older) out -> zlen src < 2 ^ 63 -> merge_from Release cd newest older = Ok r -> any_merged src out r.
Proof.
  intros Hcb Hch Hs H. inversion Hch as [|? mid ? ? ? ops Hch' Hb HA HR Hm1 Hm2 Hf HQ]; subst. unfold merge_from in H. apply bind_ok in H as (r1 & E & H).
  assert (Hok : Forall op_ok ops) by (destruct HR as (secs & r' & Hp & ->); apply (patch_read_typed Release cd Hcb _ _ _ Hp Hb)).
  destruct (new_any cd newest mid out ops r1 Hm1 Hm2 HA HR Hok E) as [M _]. destruct r1 as [g|ops'].
  - eapply more_any; eassumption.
  - injection H as <-. destruct M as (M1 & M2 & M3). split; [exact M1|]. split; [exact M2|]. exact M3.
Qed.
Lemma more_debug cd : forall older g r, merge_more Debug cd g older = Ok r -> merge_more Release cd g older = Ok r.
Proof.
  induction older as [|p older IH]; intros g r H; cbn [merge_more] in *; [exact H|]. apply bind_ok in H as (r1 & E & H). destruct (merge_rle cd g p) as [X|X]; [congruence|]. rewrite <- X, E. cbn [bind].
  destruct r1; [now apply IH|exact H].
Qed.
Lemma from_debug cd newest older r : merge_from Debug cd newest older = Ok r -> merge_from Release cd newest older = Ok r.
Proof.
  unfold merge_from. intro H. apply bind_ok in H as (r1 & E & H). destruct (new_rle cd newest) as [X|X]; [congruence|]. rewrite <- X, E. cbn [bind]. destruct r1; [now apply more_debug|exact H].
Qed.
(** C112. Merging patches of any origin, with empty operations or not, in either build: whenever it succeeds, the summary patch turns the oldest source into the newest target. It has no copies from
    the output except possibly empty ones, and its operations are legal except possibly runs of length 0. This is C49 for all operations the format can express. *)
Theorem C112_merge_composes : forall m cd Q newest older src out r, codecs_bytes cd -> any_chain cd Q src (newest :: older) out -> zlen src < 2 ^ 63 ->
  merge_from m cd newest older = Ok r ->
  run_ops src [] (summary_of r) = Some out /\ Forall (fun o => is_out_copy o = true -> op_len o = 0) (summary_of r) /\ Forall nearly_legal (summary_of r).
Proof.
  intros m cd Q newest older src out r Hcb Hch Hs H. assert (H' : merge_from Release cd newest older = Ok r) by (destruct m; [now apply from_debug|exact H]).
  destruct (any_summary _ _ _ (from_any cd Q newest older src out r Hcb Hch Hs H')) as (H1 & H2 & H3). auto.
Qed.

(** ** Success *)
Lemma dict_fits_inside mid out l : Forall (placed mid out) l -> Forall (inside mid) l -> dict_fits (zlen mid) (map snd l) = true.
Proof.
  intros H HI. unfold dict_fits. apply forallb_forall. intros x Hx. apply in_map_iff in Hx as ([q o] & <- & Hin). rewrite Forall_forall in *. specialize (H _ Hin). specialize (HI _ Hin). unfold inside in HI. cbn [snd] in *.
  destruct o as [|?|[] a n]; auto. destruct H as (Hlo & _ & _ & Hp). cbn [fst snd op_len] in *. pose proof (loose_oal _ Hlo) as [_ Hl]. cbn [op_len] in Hl. destruct (Z.eq_dec n 0) as [->|N]; [lia|].
  destruct (Hp ltac:(lia)) as (_ & _ & _ & Hb). cbn [snd op_bytes] in Hb. destruct (in_range mid a n) eqn:E; [|discriminate]. apply in_range_iff in E; lia.
Qed.
Lemma new_any_ok cd patch src out ops : applies Release cd patch src out -> reads_as Release cd patch ops -> Forall op_ok ops -> bytes_of is_copy ops = 0 \/ out_fit 0 ops = true ->
  exists r, merger_new Release cd patch = Ok r.
Proof.
  intros HA HR Hok Ht. destruct (applies_extract _ _ _ _ _ _ HA HR Hok) as [HE _]. unfold merger_new. rewrite HE. cbn [bind]. rewrite stats_fold by exact Hok. cbn [st_copy_bytes stats_new].
  destruct (0 + 2 * bytes_of is_copy ops =? 0) eqn:E; [eauto|]. pose proof (deref_loose ops (loose_all_ok _ Hok)) as D. destruct Ht as [Ht|Ht]; [lia|]. rewrite Ht in D.
  destruct D as (r & -> & _). cbn [bind debug_assert_]. eauto.
Qed.
Lemma merge_any_ok cd g patch src mid out ops : zlen src < 2 ^ 63 -> zlen mid < 2 ^ 63 -> any_merger mid out g -> Forall (inside mid) (mg_patch g) -> applies Release cd patch src mid ->
  reads_as Release cd patch ops -> Forall op_ok ops -> fits_memory ops -> bytes_of is_copy ops = 0 \/ out_fit 0 ops = true -> exists r, merger_merge Release cd g patch = Ok r.
Proof.
  intros Hs Hm (C & P & Q & L & X) HI HA HR Hok (Fm1 & Fm2) Ht. destruct (applies_extract _ _ _ _ _ _ HA HR Hok) as [HE Hrun]. unfold merger_merge. cbn [debug_assert_ bind].
  rewrite HE. cbn [bind]. rewrite stats_fold by exact Hok. cbn [st_copy_bytes stats_new]. destruct (run_placed src ops [] mid Hok Hrun) as [_ Hz]. rewrite (@zlen_nil Z) in Hz.
  pose proof (bytes_of_nonneg is_copy ops Hok) as Hn.
  assert (HP : exists pr, (if 0 + 2 * bytes_of is_copy ops >? 0 then deref_copy_o Release (number 0 ops) else Ok (number 0 ops)) = Ok pr /\ contiguous 0 pr /\ looses pr /\ slen pr = zlen mid /\ zlen pr < 2 ^ 64).
  { destruct (0 + 2 * bytes_of is_copy ops >? 0) eqn:E.
    - pose proof (deref_loose ops (loose_all_ok _ Hok)) as D. destruct Ht as [Ht|Ht]; [lia|]. rewrite Ht in D. destruct D as (pr & E1 & C1 & P1 & L1 & _). exists pr.
      split; [exact E1|]. split; [exact C1|]. split; [exact P1|]. split; [lia|now apply Fm2].
    - exists (number 0 ops). split; [reflexivity|]. split; [apply number_contig|]. split; [now apply looses_number, loose_all_ok|]. split; [rewrite slen_number; lia|].
      rewrite <- (zlen_map snd), number_snd; exact Fm1. }
  destruct HP as (pr & -> & C1 & P1 & L1 & Z1). cbn [bind].
  pose proof (merge_loop_loose (mg_patch g) pr C1 P1 Z1 (mg_patch g) [] 0 eq_refl C (placed_looses _ _ _ P)) as M. rewrite L1, (dict_fits_inside mid out _ P HI) in M.
  change (zlen (@nil sparse)) with 0 in M. rewrite <- X in M. destruct M as (ix & ins & -> & _). cbn [bind]. destruct (zlen ix =? 0); eauto.
Qed.
Lemma more_any_ok cd : codecs_bytes cd -> forall older src mid, any_chain cd starts_inside src older mid -> forall out g, zlen src < 2 ^ 63 -> zlen out < 2 ^ 63 -> any_merger mid out g ->
  Forall (inside mid) (mg_patch g) -> exists r, merge_more Release cd g older = Ok r.
Proof.
  intro Hcb. induction older as [|p older IH]; intros src mid Hch out g Hs Ho Hg HI; inversion Hch as [|? mid' ? ? ? ops Hch' Hb HA HR Hm1 Hm2 Hf [HQ1 HQ2]]; subst; cbn [merge_more]; [eauto|].
  assert (Hok : Forall op_ok ops) by (destruct HR as (secs & r' & Hp & ->); apply (patch_read_typed Release cd Hcb _ _ _ Hp Hb)).
  destruct (merge_any_ok cd g p mid' mid out ops Hm1 Hm2 Hg HI HA HR Hok Hf HQ1) as (r1 & E). rewrite E. cbn [bind].
  destruct (merge_any cd g p mid' mid out ops r1 Hm1 Hm2 Ho Hg HA HR Hok Hf E) as [M MI]. destruct r1 as [g'|ops']; [|eauto]. eapply IH; [exact Hch'|exact Hs|exact Ho|exact M|exact (MI HQ2)].
Qed.
(** C112. In builds without debug assertions it succeeds if every copy, also the empty ones, starts inside what it copies from. (Otherwise it need not: the empty copy of [nothing_patch], C79.) *)
Theorem C112_merge_succeeds : forall cd newest older src out, codecs_bytes cd -> any_chain cd starts_inside src (newest :: older) out -> zlen src < 2 ^ 63 ->
  exists r, merge_from Release cd newest older = Ok r.
Proof.
  intros cd newest older src out Hcb Hch Hs. inversion Hch as [|? mid ? ? ? ops Hch' Hb HA HR Hm1 Hm2 Hf [HQ1 HQ2]]; subst. unfold merge_from.
  assert (Hok : Forall op_ok ops) by (destruct HR as (secs & r' & Hp & ->); apply (patch_read_typed Release cd Hcb _ _ _ Hp Hb)).
  destruct (new_any_ok cd newest mid out ops HA HR Hok HQ1) as (r1 & E). rewrite E. cbn [bind]. destruct (new_any cd newest mid out ops r1 Hm1 Hm2 HA HR Hok E) as [M MI].
  destruct r1 as [g|ops']; [|eauto]. eapply more_any_ok; [exact Hcb|exact Hch'|exact Hs|exact Hm2|exact M|exact (MI HQ2)].
Qed.

(** ** Writing *)
(** C112. A summary without runs of length 0, with fewer than 2^32 operations and no empty copy from beyond 2^63, can be written (if smdiff compression is asked for: with legal settings), and the
    written patch turns the oldest source into the newest target. *)
Theorem C112_written : forall m m' cd Q newest older src out r seg f sc, codecs_bytes cd -> codecs_shrink cd -> any_chain cd Q src (newest :: older) out -> zlen src < 2 ^ 63 ->
  merge_from m cd newest older = Ok r -> (forall b, ~ In (Run b 0) (summary_of r)) -> zlen (summary_of r) < 2 ^ 32 -> (forall s a, In (Copy s a 0) (summary_of r) -> a < 2 ^ 63) ->
  (legal_comp sc -> exists b, summary_write m' cd (summary_of r) seg f sc = (b, Ok tt)) /\
  forall b, comp_lossless cd sc (summary_of r) -> summary_write m' cd (summary_of r) seg f sc = (b, Ok tt) -> applies m' cd b src out.
Proof.
  intros m m' cd Q newest older src out r seg f sc Hcb Hcs Hch Hs H Hr Hz Ha. destruct (C112_merge_composes m cd Q newest older src out r Hcb Hch Hs H) as (Hrun & Hq & Hn).
  set (ops := summary_of r) in *.
  assert (Hok : Forall op_ok ops). { rewrite Forall_forall in *. intros x Hx. destruct (Hn x Hx) as [Hy|(b & _ & ->)]; [exact Hy|]. destruct (Hr b Hx). }
  assert (Hadr : addrs_lt (2 ^ 63) ops).
  { destruct (run_placed src ops [] out Hok Hrun) as [Hp _]. apply Forall_forall. intros x Hx. destruct x as [|?|s a n]; auto.
    assert (Hty : 0 <= a) by (rewrite Forall_forall in Hok; destruct (Hok _ Hx) as [Ht _]; cbn in Ht; lia). split; [exact Hty|].
    destruct (Z.eq_dec n 0) as [->|N]; [exact (Ha s a Hx)|]. rewrite Forall_forall in Hq, Hok. destruct (Hok _ Hx) as [Ht _]. cbn in Ht.
    destruct s; [|specialize (Hq _ Hx eq_refl); cbn in Hq; lia]. assert (Hin : exists q, In (q, Copy Dict a n) (number (zlen (@nil Z)) ops)).
    { rewrite <- (number_snd ops (zlen (@nil Z))) in Hx. apply in_map_iff in Hx as ([q o] & E & Hin). cbn [snd] in E. subst o. eauto. }
    destruct Hin as (q & Hin). rewrite Forall_forall in Hp. destruct (Hp _ Hin) as (_ & _ & _ & Hpl). cbn [snd op_len] in Hpl. destruct (Hpl ltac:(lia)) as (_ & _ & _ & Hb). cbn [snd op_bytes] in Hb.
    destruct (in_range src a n) eqn:E; [|discriminate]. apply in_range_iff in E; lia. }
  set (fm := match f with Some f => f | None => Interleaved end). set (w := match seg with Some w => w | None => MAX_WIN_SIZE end).
  destruct (trans_sections fm w ops Hok Hadr (or_introl Hz)) as (Hcat & Hfl & Hin). split.
  - intro Hsc. unfold summary_write. cbv zeta. rewrite clamp_idem. apply write_all_ok; [exact Hsc|]. eapply Forall_impl; [|exact Hin]. intros s Hx. apply Hx.
  - intros b Hcl Hw. unfold summary_write in Hw. cbv zeta in Hw. rewrite clamp_idem in Hw. fold fm w in Hw. rewrite (write_all_is _ _ _ [] [] 0) in Hw.
    assert (Hsg : secs_good (next_section m' cd) (map (sec_with fm (comp_value sc)) (make_sections ops w)) b).
    { eapply write_sections_good; [| | |exact Hfl|exact Hw].
      - intros ops1 h1 b1 He Hi Hw1. exact (section_writer_good m' m' cd sc fm ops1 h1 b1 (comp_lossless_imp cd sc ops ops1 He Hcl) Hi Hw1).
      - eapply Forall_impl; [|exact Hin]. intros s (_ & _ & Hx) E. exact (Hx E).
      - eapply Forall_impl; [|exact Hin]. intros s Hx. apply Hx. }
    destruct (secs_good_read _ _ _ Hsg []) as (outs & Hr1 & Hall). rewrite app_nil_r in Hr1.
    assert (HR : reads_as m' cd b ops) by (exists outs, []; split; [exact Hr1|]; rewrite (Forall2_fst _ _ _ (fun _ _ X => proj1 X) Hall), sec_with_ops; now rewrite Hcat).
    pose proof (apply_perform m' cd b src ops [] 0 Hcs HR (ops_ok_nonneg _ Hok)) as E. destruct (perform src [] [] ops) as [o ok] eqn:Ep.
    pose proof (perform_old src [] ops [] out (ops_ok_nonneg _ Hok) Hrun) as Eo. exists (zlen o). rewrite E.
    rewrite Ep in Eo. injection Eo as -> ->. unfold over, drop. rewrite skipn_nil, app_nil_r. reflexivity.
Qed.

(** ** Where empty operations do harm *)
Definition em_new : list Z := [0; 2; 1; 1; 0; 0; 0; 0; 2].
Definition em_run : list Z := [0; 1; 3; 195; 5].
Definition em_add : list Z := [0; 3; 3; 129; 5; 128; 0; 0; 130; 6; 7].
Definition em_add' : list Z := [0; 2; 3; 129; 5; 130; 6; 7].
Definition em_new2 : list Z := [0; 4; 3; 1; 0; 0; 0; 0; 2; 65; 0; 1; 0].
(** C112, refuted: two patches apply one after the other, all copies start inside what they copy from, and merging them gives a summary with a run of length 0, which cannot be written: a release build
    panics in write after part of the patch is written, a debug build already in merge. *)
Theorem C112_harmless_refuted : forall cd src,
  applies Release cd em_run src [5; 5; 5] /\ applies Release cd em_new [5; 5; 5] [5] /\ reads_as Release cd em_new [Copy Dict 0 1; Copy Dict 1 0] /\ starts_inside [5; 5; 5] [Copy Dict 0 1; Copy Dict 1 0] /\
  merge_from Release cd em_new [em_run] = Ok (Summary [Run 5 1; Run 5 0]) /\
  summary_write Release cd [Run 5 1; Run 5 0] None None None = ([0; 2; 1; 193; 5], Panic) /\
  merge_from Debug cd em_new [em_run] = Panic.
Proof.
  intros cd src. split; [exists 3; vm_compute; reflexivity|]. split; [exists 1; vm_compute; reflexivity|]. split.
  { exists [([Copy Dict 0 1; Copy Dict 1 0], mkHeader 0 Interleaved false 2 0 1)], []. split; [apply pr_last; vm_compute; reflexivity|reflexivity]. }
  split; [split; [right; reflexivity|]; intros a n [E|[E|[]]]; injection E as <- <-; vm_compute; reflexivity|]. split; [vm_compute; reflexivity|]. split; vm_compute; reflexivity.
Qed.

Lemma em_fits ops n : zlen ops < 2 ^ 64 -> (exists l, deref_copy_o Release (number 0 ops) = Ok l /\ zlen l = n /\ n < 2 ^ 64) -> fits_memory ops.
Proof. intros H (l & E & <- & Hl). split; [exact H|]. intros l' E'. rewrite E in E'. now injection E' as <-. Qed.
(** A chain of two patches with empty operations: an empty literal in the older, an empty copy and a copy from the output in the newer. It is merged, written and applied; without its empty literal the older patch does the same. *)
Example C112_example : codecs_bytes toy /\ codecs_shrink toy /\ any_chain toy starts_inside [1] [em_new2; em_add] [5; 5; 6] /\
  merge_from Release toy em_new2 [em_add] = Ok (Summary [Add [5]; Add []; Add [5]; Add [6]]) /\
  summary_write Debug toy [Add [5]; Add []; Add [5]; Add [6]] None None None = ([0; 4; 3; 129; 5; 128; 0; 0; 129; 5; 129; 6], Ok tt) /\
  reads_as Release toy em_add [Add [5]; Add []; Add [6; 7]] /\ reads_as Release toy em_add' (without_empty [Add [5]; Add []; Add [6; 7]]).
Proof.
  split; [apply C54_example|]. split; [apply C54_example|].
  assert (R1 : reads_as Release toy em_add [Add [5]; Add []; Add [6; 7]]) by (exists [([Add [5]; Add []; Add [6; 7]], mkHeader 0 Interleaved false 3 0 3)], []; split; [apply pr_last; vm_compute; reflexivity|reflexivity]).
  assert (R2 : reads_as Release toy em_add' (without_empty [Add [5]; Add []; Add [6; 7]])) by (exists [([Add [5]; Add [6; 7]], mkHeader 0 Interleaved false 2 0 3)], []; split; [apply pr_last; vm_compute; reflexivity|reflexivity]).
  split; [|repeat split; auto].
  apply (ac_cons toy starts_inside [1] [5; 6; 7] _ em_new2 [em_add] [Copy Dict 0 1; Copy Dict 1 0; Copy Output 0 1; Copy Dict 1 1]).
  - apply (ac_cons toy starts_inside [1] [1] _ em_add [] [Add [5]; Add []; Add [6; 7]]); [constructor|apply byteb_ok; reflexivity|exists 3; vm_compute; reflexivity|exact R1|vm_compute; reflexivity|vm_compute; reflexivity| |].
    + apply (em_fits _ 3); [vm_compute; reflexivity|]. eexists. split; [vm_compute; reflexivity|]. split; vm_compute; reflexivity.
    + split; [left; reflexivity|]. intros a n [E|[E|[E|[]]]]; discriminate.
  - apply byteb_ok; reflexivity.
  - exists 3. vm_compute. reflexivity.
  - exists [([Copy Dict 0 1; Copy Dict 1 0; Copy Output 0 1; Copy Dict 1 1], mkHeader 0 Interleaved false 4 0 3)], []. split; [apply pr_last; vm_compute; reflexivity|reflexivity].
  - vm_compute; reflexivity.
  - vm_compute; reflexivity.
  - apply (em_fits _ 4); [vm_compute; reflexivity|]. eexists. split; [vm_compute; reflexivity|]. split; vm_compute; reflexivity.
  - split; [right; reflexivity|]. intros a n [E|[E|[E|[E|[]]]]]; try discriminate; injection E as <- <-; vm_compute; reflexivity.
Qed.

Print Assumptions C112_empty_operations_do_nothing.
Print Assumptions C112_merge_composes.
Print Assumptions C112_merge_succeeds.
Print Assumptions C112_written.
Print Assumptions C112_harmless_refuted.
