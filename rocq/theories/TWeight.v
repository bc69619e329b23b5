(** Property C117: what matching can cost. *)
From Verif Require Import Base Spec SpecEnc MCommon MWriter MReader MDecoder MOpMaker MTrgtMatcher MSrcMatcher MEncInner MEncode MLevels
  SpecApi PBase PSection PWriter PDecoder POpMaker PEncInner PEncode PWeight TEncode TSize TTrunc.
Ltac Zify.zify_post_hook ::= idtac.
Arguments Z.add : simpl never.
Arguments Z.sub : simpl never.
Arguments Z.mul : simpl never.
Arguments Z.pow : simpl never.
Arguments Z.div : simpl never.

(** C117. Whatever is matched, with addresses that fit into k bytes (files of at most 2^(7k-1) bytes: 8 KiB for k = 2, 1 MiB for 3, 128 MiB for 4,
    16 GiB for 5) the patch is at most (4k+9)/16 of the target, plus k + 3 bytes and 13 for every section. *)
Theorem C117_what_matching_can_cost : forall m cd c dict trgt patch k, 2 <= k <= 8 -> Forall is_byte trgt ->
  zlen trgt <= 2 ^ (7 * k - 1) -> zlen (source_of dict) <= 2 ^ (7 * k - 1) -> cf_comp c = None -> encode m cd c dict trgt = (patch, Ok tt) ->
  16 * zlen patch <= (4 * k + 9) * zlen trgt + 16 * (k + 3) + 16 * 13 * (1 + 2 * zlen trgt / clamp_section (cf_segment c)).
Proof.
  intros m cd c dict trgt patch k Hk Hb Ht Hs Hc H.
  assert (HB : 0 < 2 ^ (7 * k - 1) <= 2 ^ 55) by (split; [apply Z.pow_pos_nonneg; lia|apply Z.pow_le_mono_r; lia]).
  destruct (encode_sized m m cd c dict trgt patch Hb ltac:(lia) ltac:(lia) Hc H) as (ops & outs & Hr & Eo & Ec & [Hg Hrun] & Hn & Hz & cs & Ei & Et).
  assert (Ha : addrs_lt (2 ^ (7 * k - 1)) ops) by (apply (run_ops_addrs (source_of dict) (2 ^ (7 * k - 1)) ltac:(lia) ops [] trgt Hrun Hg); lia).
  assert (HF : Forall (fun ops => Forall op_good ops /\ addrs_lt (2 ^ (7 * k - 1)) ops /\ ops_len ops <= max_win_size) (map fst outs)).
  { rewrite Eo. pose proof (good_ok _ Hg) as Hok. destruct (make_sections_spec ops (cf_segment c) Hok) as ((Hsec & _) & Hcat & _); [right; apply (Forall_impl _ (fun x (Hx : op_good x) => proj2 Hx)); exact Hg|].
    rewrite Forall_map. rewrite <- Hcat in Hg, Ha. apply Forall_concat_inv in Hg. apply addrs_concat in Ha. rewrite Forall_map in Hg, Ha. rewrite Forall_forall in *. intros s Hx. split; [exact (Hg s Hx)|]. split; [exact (Ha s Hx)|].
    destruct (Hsec s Hx) as (_ & _ & (_ & Ho & _) & Hle). rewrite <- Ho. eapply Z.le_trans; [apply Hle|]. unfold clamp_section, max_inst_size, max_win_size. lia. }
  pose proof (sections_cost_k k (cf_format c) ltac:(lia) _ HF) as B. rewrite <- Hz, Ec in B.
  replace (zlen (map fst outs)) with (zlen (make_sections ops (cf_segment c))) in B by (rewrite Eo; unfold zlen; rewrite map_length; reflexivity).
  pose proof (C90_section_count ops (cf_segment c) (good_ok _ Hg)) as S. pose proof (run_ops_len _ _ _ _ (ops_ok_nonneg _ (good_ok _ Hg)) Hrun) as L. rewrite (@zlen_nil Z) in L. cbn [app] in L. replace (ops_len ops) with (zlen trgt) in S by lia.
  destruct (encode_inner_sound m (inner_of c) (source_of dict) trgt cs Hb ltac:(lia) ltac:(lia) Ei) as [Hcs Hord].
  pose proof (translate_kcost m k (source_of dict) trgt cs ops ltac:(lia) Hb ltac:(lia) ltac:(lia) Hcs Hord Et) as K.
  pose proof (encode_inner_lack m (inner_of c) (source_of dict) trgt cs Hb ltac:(lia) ltac:(lia) Ei) as Lk.
  assert (4 * (k + 2) * lack cs <= 16 * (k + 2)) by nia. lia.
Qed.

(** C117. For files of up to 16 GiB: never more than twice the target and 21 bytes, whatever the sections. *)
Theorem C117_at_most_twice : forall m cd c dict trgt patch, Forall is_byte trgt ->
  zlen trgt <= 2 ^ 34 -> zlen (source_of dict) <= 2 ^ 34 -> cf_comp c = None -> encode m cd c dict trgt = (patch, Ok tt) ->
  zlen patch <= 2 * zlen trgt + 21.
Proof.
  intros m cd c dict trgt patch Hb Ht Hs Hc H. pose proof (C117_what_matching_can_cost m cd c dict trgt patch 5 ltac:(lia) Hb Ht Hs Hc H) as K.
  pose proof (zlen_nonneg trgt) as Hz. assert (D : 2 * zlen trgt / clamp_section (cf_segment c) <= 2 * zlen trgt / 65535).
  { apply Z.div_le_compat_l; [lia|]. unfold clamp_section, max_inst_size, max_win_size. lia. }
  pose proof (Z.mul_div_le (2 * zlen trgt) 65535 ltac:(lia)). lia.
Qed.

(** ** Finding: looking for repeats can make a patch larger *)
Definition spread117 (k : Z) : list Z := map (fun i => (Z.of_nat i * k) mod 256) (seq 1 100).
Definition trgt117 : list Z := [0; 0; 0; 0] ++ spread117 1 ++ sub (spread117 1) 10 4 ++ spread117 3 ++ sub (spread117 1) 30 4 ++ spread117 5 ++ sub (spread117 3) 50 4 ++ spread117 7 ++ sub (spread117 1) 50 4 ++ spread117 9.
Definition dict117 : list Z := rep 1 30.
Definition larger117 (level : Z) : bool :=
  match config_level Release level true None, config_level Release level false None with
  | Ok c1, Ok c2 => match encode Release no_codecs c1 (Some dict117) trgt117, encode Release no_codecs c2 (Some dict117) trgt117 with (p1, Ok _), (p2, Ok _) => zlen p2 + 4 =? zlen p1 | _, _ => false end
  | _, _ => false
  end.
(** C117, refuted: that turning target matching on never makes a patch larger. There are a dictionary and a target of 520 bytes with which it
    makes the patch four bytes larger at every compression level. *)
Theorem C117_matching_can_enlarge_a_patch : exists dict trgt, Forall is_byte trgt /\ Forall is_byte dict /\ forall level, 0 <= level <= 9 ->
  exists c1 c2 p1 p2, config_level Release level true None = Ok c1 /\ config_level Release level false None = Ok c2 /\
    encode Release no_codecs c1 (Some dict) trgt = (p1, Ok tt) /\ encode Release no_codecs c2 (Some dict) trgt = (p2, Ok tt) /\ zlen p1 = zlen p2 + 4.
Proof.
  exists dict117, trgt117. split; [apply Forall_forall; intros x Hx; assert (A : forallb (fun x => (0 <=? x) && (x <? 256)) trgt117 = true) by (vm_compute; reflexivity); rewrite forallb_forall in A; specialize (A x Hx); unfold is_byte; lia|].
  split; [apply Forall_forall; intros x Hx; assert (A : forallb (fun x => (0 <=? x) && (x <? 256)) dict117 = true) by (vm_compute; reflexivity); rewrite forallb_forall in A; specialize (A x Hx); unfold is_byte; lia|].
  assert (A : forallb larger117 [0; 1; 2; 3; 4; 5; 6; 7; 8; 9] = true) by (vm_compute; reflexivity).
  intros level Hl. rewrite forallb_forall in A. assert (Hin : In level [0; 1; 2; 3; 4; 5; 6; 7; 8; 9]).
  { assert (level = 0 \/ level = 1 \/ level = 2 \/ level = 3 \/ level = 4 \/ level = 5 \/ level = 6 \/ level = 7 \/ level = 8 \/ level = 9) as D by lia. cbn [In]. intuition auto. }
  specialize (A level Hin). unfold larger117 in A. clear Hin.
  destruct (config_level Release level true None) as [c1|e| |]; try discriminate A. destruct (config_level Release level false None) as [c2|e| |]; try discriminate A.
  destruct (encode Release no_codecs c1 (Some dict117) trgt117) as [p1 [[]|e| |]] eqn:E1; try discriminate A. destruct (encode Release no_codecs c2 (Some dict117) trgt117) as [p2 [[]|e| |]] eqn:E2; try discriminate A.
  apply Z.eqb_eq in A. exists c1, c2, p1, p2. repeat (split; [first [reflexivity|assumption]|]). lia.
Qed.

(** The target above, at level 3, meets the hypotheses: 529 bytes against a bound of (8 + 9)/16 * 520 + 5 + 13 = 570. *)
Example C117_example : match config_level Release 3 true None with
  | Ok c => cf_comp c = None /\ snd (encode Release no_codecs c (Some dict117) trgt117) = Ok tt /\ zlen (fst (encode Release no_codecs c (Some dict117) trgt117)) = 529
  | _ => False end /\ zlen trgt117 = 520 /\ zlen trgt117 <= 2 ^ (7 * 2 - 1) /\ zlen dict117 <= 2 ^ (7 * 2 - 1).
Proof. vm_compute. repeat split; discriminate. Qed.
Print Assumptions C117_what_matching_can_cost.
Print Assumptions C117_at_most_twice.
Print Assumptions C117_matching_can_enlarge_a_patch.
