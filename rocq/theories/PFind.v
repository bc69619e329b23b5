(** What the encoder finds: the source index, shared beginnings, short sources. *)
From Verif Require Import Base Spec SpecEnc MCommon MHasher MHashmap MOpMaker MTrgtMatcher MSrcMatcher MEncInner MEncode SpecApi PBase PHasher PHashmap PDecoder POpMaker PEncInner PTotal PTotal2 PEncode TOpMaker TMatch.
Ltac Zify.zify_post_hook ::= idtac.
Arguments Z.add : simpl never.
Arguments Z.sub : simpl never.
Arguments Z.mul : simpl never.
Arguments Z.pow : simpl never.

(** ** First pass: how much of a stretch [.., L) stays covered *)
Definition clip (L : Z) (c : cand) : Z := Z.max 0 (Z.min (c_end c) L - c_pos c).
Definition clips (L : Z) (cs : list cand) : Z := fold_right (fun c s => clip L c + s) 0 cs.
Lemma clips_nonneg L cs : 0 <= clips L cs.
Proof. induction cs as [|c cs IH]; cbn [clips fold_right]; [lia|]. fold (clips L cs). unfold clip. lia. Qed.
Lemma clips_covered L cs : Forall (fun c => 0 <= c_len c) cs -> clips L cs <= covered cs.
Proof. induction 1 as [|c cs H _ IH]; cbn [clips covered fold_right]; [lia|]. fold (clips L cs) (covered cs). unfold clip, c_end. lia. Qed.

(** One step of the first pass, inverted. *)
Lemma pass1_step m src trgt (Hl : zlen trgt < 2 ^ 64) one two rest r : cand_sound src trgt one -> cand_sound src trgt two -> cands_ordered (one :: two :: rest) -> pass1 m one (two :: rest) = Ok r ->
  (c_end one <= c_pos two /\ exists r', pass1 m two rest = Ok r' /\ r = one :: r') \/
  (pass1 m one rest = Ok r) \/
  (c_pos two < c_end one /\ match rest with three :: _ => c_end one <= c_pos three | [] => True end /\
   ((c_pos two <= c_pos one + 5 /\ pass1 m two rest = Ok r) \/
    exists one' two' mid r', c_pos two <= mid < c_end one /\ cand_sound src trgt two' /\ cands_ordered (two' :: rest) /\ c_pos one' = c_pos one /\ c_end one' = mid /\ c_pos two' = mid /\ c_end two' = c_end two /\
      pass1 m two' rest = Ok r' /\ r = one' :: r')).
Proof.
  intros Ho Ht Hs H. pose proof Hs as (Hp & He & Hs'). assert (Hone := Ho). destruct Hone as (O1 & O2 & O3 & _). assert (Htwo := Ht). destruct Htwo as (T1 & T2 & T3 & _).
  cbn [pass1] in H. unfold c_end in *. unfold assert_ at 1 in H. replace (c_pos one <=? c_pos two) with true in H by lia. cbn [bind] in H.
  destruct (c_pos one + c_len one <=? c_pos two) eqn:E1.
  { left. apply bind_ok in H as (r' & Hr & H). injection H as <-. split; [lia|]. now exists r'. }
  destruct (match rest with three :: _ => c_pos one + c_len one >? c_pos three | [] => false end) eqn:E2; [right; now left|].
  assert (E2' : match rest with three :: _ => c_pos one + c_len one <= c_pos three | [] => True end) by (destruct rest; [exact I|lia]).
  rewrite usub_ok in H by lia. cbn [bind] in H.
  destruct ((c_pos two + c_len two - c_pos one <=? 13) || (c_pos two - c_pos one <=? 4)) eqn:E3.
  { destruct (c_len one <? c_len two) eqn:E4; [|right; now left]. right. right. split; [lia|]. split; [exact E2'|]. left. split; [|exact H].
    apply orb_true_iff in E3. lia. }
  unfold assert_ at 1 in H. replace (c_pos two + c_len two >=? c_pos one + c_len one) with true in H by lia. cbn [bind] in H.
  set (mid := c_pos two + (c_pos one + c_len one - c_pos two) / 2) in *.
  assert (Hmid : c_pos two <= mid < c_pos one + c_len one).
  { unfold mid. pose proof (Z.div_pos (c_pos one + c_len one - c_pos two) 2 ltac:(lia) ltac:(lia)).
    pose proof (Z.div_lt (c_pos one + c_len one - c_pos two) 2 ltac:(lia) ltac:(lia)). lia. }
  apply bind_ok in H as (one' & Eo & H). destruct (cand_sound_trunc src trgt one (mid - c_pos one) one' Ho ltac:(lia) Eo) as (So & Po & Lo & _).
  destruct (cand_sound_shift m src trgt two mid Ht ltac:(unfold c_end; lia) Hl) as (two' & Et & St & Pt & Et'). rewrite Et in H. cbn [bind] in H.
  apply bind_ok in H as (u & _ & H). apply bind_ok in H as (r' & Hr & H). injection H as <-.
  right. right. split; [lia|]. split; [exact E2'|]. right. exists one', two', mid, r'. split; [exact Hmid|]. split; [exact St|]. split.
  { destruct rest as [|three rest]; [exact I|]. cbn in Hs'. destruct Hs' as (A & B & C). cbn. unfold c_end in *. rewrite Pt. split; [lia|]. split; [lia|]. exact C. }
  unfold c_end in *. split; [exact Po|]. split; [lia|]. split; [exact Pt|]. split; [exact Et'|]. split; [exact Hr|reflexivity].
Qed.
Lemma ordered_pos : forall rest p, match rest with x :: _ => p <= c_pos x | [] => True end -> cands_ordered rest -> Forall (fun c => p <= c_pos c) rest.
Proof.
  induction rest as [|x rest IH]; intros p Hp Ho; [constructor|]. constructor; [exact Hp|]. apply IH; [|eapply cands_ordered_tail; exact Ho].
  destruct rest as [|y rest]; [exact I|]. destruct Ho as (A & _). lia.
Qed.
(** All further candidates start at or after [L]: at most 5 bytes are given up. *)
Lemma pass1_clips_last m src trgt (Hl : zlen trgt < 2 ^ 64) L : forall rest one r, cand_sound src trgt one -> Forall (cand_sound src trgt) rest -> cands_ordered (one :: rest) -> Forall (fun c => L <= c_pos c) rest ->
  L <= c_end one -> pass1 m one rest = Ok r -> L - c_pos one - 5 <= clips L r.
Proof.
  induction rest as [|two rest IH]; intros one r Ho Hr Hs Hp He H.
  - injection H as <-. cbn [clips fold_right]. unfold clip. lia.
  - apply Forall_cons_iff in Hr as [Ht Hr]. apply Forall_cons_iff in Hp as [Hp1 Hp]. pose proof Hs as (Q1 & Q2 & Q3).
    destruct (pass1_step m src trgt Hl one two rest r Ho Ht Hs H) as [(G1 & r' & G2 & ->)|[G|(G1 & G2 & [(G3 & G4)|(one' & two' & mid & r' & G3 & G4 & G4' & G5 & G6 & G7 & G8 & G9 & ->)])]].
    + cbn [clips fold_right]. fold (clips L r'). pose proof (clips_nonneg L r'). unfold clip. lia.
    + apply (IH one r); auto. eapply cands_ordered_skip; exact Hs.
    + pose proof (clips_nonneg L r). lia.
    + cbn [clips fold_right]. fold (clips L r'). pose proof (clips_nonneg L r'). unfold clip. rewrite G5, G6. lia.
Qed.
(** In general at most 10 bytes are given up. *)
Lemma pass1_clips m src trgt (Hl : zlen trgt < 2 ^ 64) L : forall rest one r, cand_sound src trgt one -> Forall (cand_sound src trgt) rest -> cands_ordered (one :: rest) ->
  L <= c_end one -> pass1 m one rest = Ok r -> L - c_pos one - 10 <= clips L r.
Proof.
  induction rest as [|two rest IH]; intros one r Ho Hr Hs He H.
  - injection H as <-. cbn [clips fold_right]. unfold clip. lia.
  - apply Forall_cons_iff in Hr as [Ht Hr]. pose proof Hs as (Q1 & Q2 & Q3).
    destruct (pass1_step m src trgt Hl one two rest r Ho Ht Hs H) as [(G1 & r' & G2 & ->)|[G|(G1 & G2 & [(G3 & G4)|(one' & two' & mid & r' & G3 & G4 & G4' & G5 & G6 & G7 & G8 & G9 & ->)])]].
    + cbn [clips fold_right]. fold (clips L r'). pose proof (clips_nonneg L r'). unfold clip. lia.
    + apply (IH one r); auto. eapply cands_ordered_skip; exact Hs.
    + assert (Hp : Forall (fun c => L <= c_pos c) rest) by (apply ordered_pos; [destruct rest; [exact I|lia]|eapply cands_ordered_tail; exact Q3]).
      pose proof (pass1_clips_last m src trgt Hl L rest two r Ht Hr Q3 Hp ltac:(lia) G4). lia.
    + assert (Hp : Forall (fun c => L <= c_pos c) rest) by (apply ordered_pos; [destruct rest; [exact I|lia]|eapply cands_ordered_tail; exact Q3]).
      pose proof (pass1_clips_last m src trgt Hl L rest two' r' G4 Hr G4' Hp ltac:(lia) G9). pose proof (clips_nonneg L r').
      cbn [clips fold_right]. fold (clips L r'). unfold clip. rewrite G5, G6. lia.
Qed.

(** Seen from the right: how much of a stretch [R, ..) stays covered. *)
Definition clipr (R : Z) (c : cand) : Z := Z.max 0 (c_end c - Z.max R (c_pos c)).
Definition cliprs (R : Z) (cs : list cand) : Z := fold_right (fun c s => clipr R c + s) 0 cs.
Lemma cliprs_nonneg R cs : 0 <= cliprs R cs.
Proof. induction cs as [|c cs IH]; cbn [cliprs fold_right]; [lia|]. fold (cliprs R cs). unfold clipr. lia. Qed.
Lemma cliprs_covered R cs : Forall (fun c => 0 <= c_len c) cs -> cliprs R cs <= covered cs.
Proof. induction 1 as [|c cs H _ IH]; cbn [cliprs covered fold_right]; [lia|]. fold (cliprs R cs) (covered cs). unfold clipr, c_end. lia. Qed.
Lemma pass1_cliprs m src trgt (Hl : zlen trgt < 2 ^ 64) lst : forall rest one r, cand_sound src trgt one -> Forall (cand_sound src trgt) (rest ++ [lst]) ->
  cands_ordered (one :: rest ++ [lst]) -> pass1 m one (rest ++ [lst]) = Ok r -> c_len lst - 6 <= cliprs (c_pos lst) r.
Proof.
  induction rest as [|two rest IH]; intros one r Ho Hr Hs H; cbn [app] in *.
  - apply Forall_cons_iff in Hr as [Ht _]. pose proof Hs as (Q1 & Q2 & _). assert (Hone := Ho). destruct Hone as (O1 & O2 & O3 & _). assert (Htwo := Ht). destruct Htwo as (T1 & T2 & T3 & _).
    cbn [pass1] in H. unfold assert_ at 1 in H. replace (c_pos one <=? c_pos lst) with true in H by lia. cbn [bind] in H.
    destruct (c_pos one + c_len one <=? c_pos lst) eqn:E1.
    { injection H as <-. cbn [cliprs fold_right]. unfold clipr, c_end. lia. }
    unfold c_end in *. rewrite usub_ok in H by lia. cbn [bind] in H.
    destruct ((c_pos lst + c_len lst - c_pos one <=? 13) || (c_pos lst - c_pos one <=? 4)) eqn:E3.
    { destruct (c_len one <? c_len lst) eqn:E4; injection H as <-; cbn [cliprs fold_right]; unfold clipr, c_end; [lia|].
      apply orb_true_iff in E3. lia. }
    unfold assert_ at 1 in H. replace (c_pos lst + c_len lst >=? c_pos one + c_len one) with true in H by lia. cbn [bind] in H.
    set (mid := c_pos lst + (c_pos one + c_len one - c_pos lst) / 2) in *.
    assert (Hmid : c_pos lst <= mid < c_pos one + c_len one).
    { unfold mid. pose proof (Z.div_pos (c_pos one + c_len one - c_pos lst) 2 ltac:(lia) ltac:(lia)).
      pose proof (Z.div_lt (c_pos one + c_len one - c_pos lst) 2 ltac:(lia) ltac:(lia)). lia. }
    apply bind_ok in H as (one' & Eo & H). destruct (cand_sound_trunc src trgt one (mid - c_pos one) one' Ho ltac:(lia) Eo) as (So & Po & Lo & _).
    destruct (cand_sound_shift m src trgt lst mid Ht ltac:(unfold c_end; lia) Hl) as (two' & Et & St & Pt & Et'). rewrite Et in H. cbn [bind] in H.
    apply bind_ok in H as (u & _ & H). injection H as <-. cbn [cliprs fold_right]. unfold clipr, c_end in *. lia.
  - apply Forall_cons_iff in Hr as [Ht Hr]. pose proof Hs as (Q1 & Q2 & Q3).
    destruct (pass1_step m src trgt Hl one two (rest ++ [lst]) r Ho Ht Hs H) as [(G1 & r' & G2 & ->)|[G|(G1 & G2 & [(G3 & G4)|(one' & two' & mid & r' & G3 & G4 & G4' & G5 & G6 & G7 & G8 & G9 & ->)])]].
    + cbn [cliprs fold_right]. fold (cliprs (c_pos lst) r'). pose proof (IH two r' Ht Hr Q3 G2). unfold clipr. lia.
    + apply (IH one r); auto. eapply cands_ordered_skip; exact Hs.
    + exact (IH two r Ht Hr Q3 G4).
    + cbn [cliprs fold_right]. fold (cliprs (c_pos lst) r'). pose proof (IH two' r' G4 Hr G4' G9). unfold clipr. lia.
Qed.
(** Literals left after both passes. *)
Lemma disjoint_cands from l : Forall (fun c => 0 <= c_len c) l -> disjoint from l -> cands_disjoint l /\ match l with c :: _ => from <= c_pos c | [] => True end.
Proof.
  intro Hf. revert from. induction Hf as [|c l Hc Hf IH]; intros from H; [split; exact I|]. cbn in H. destruct H as [H1 H2]. split; [|exact H1].
  destruct (IH _ H2) as [A B]. destruct l as [|d l]; [exact I|]. split; [exact B|exact A].
Qed.
Lemma sound_len src trgt l : Forall (cand_sound src trgt) l -> Forall (fun c => 0 <= c_len c) l.
Proof. apply Forall_impl. intros c H. apply H. Qed.
Lemma translate_literals m src trgt one rest ops K : Forall is_byte trgt -> zlen trgt < 2 ^ 64 -> zlen src < 2 ^ 64 ->
  Forall (cand_sound src trgt) (one :: rest) -> cands_ordered (one :: rest) ->
  (forall r, pass1 m one rest = Ok r -> Forall (cand_sound src trgt) r -> K <= covered r) ->
  translate_inner_ops m trgt (one :: rest) = Ok ops -> adds_len ops <= zlen trgt - K.
Proof.
  intros Hb Hl Hls Hs Ho HK H. apply Forall_cons_iff in Hs as [H1 H2]. destruct (pass1_ok m src trgt Hl rest one H1 H2 Ho) as (r & A & B & C).
  unfold translate_inner_ops in H. rewrite A in H. cbn [bind] in H. specialize (HK r A B).
  destruct (disjoint_cands _ r (sound_len _ _ _ B) C) as [D1 D2].
  assert (D3 : match r with c :: _ => 0 <= c_pos c | [] => True end) by (destruct r; [exact I|]; destruct H1 as (H1 & _); lia).
  pose proof (pass2_literals src trgt r 0 ops B D1 ltac:(lia) D3 (zlen_nonneg trgt) H). lia.
Qed.

(** ** The first candidate is never removed *)
Definition ends_in (c : cand) (ops : list cand) : Prop := exists l, ops = l ++ [c].
Lemma ends_in_cons c d ops : ends_in c ops -> ends_in c (d :: ops).
Proof. intros (l & ->). now exists (d :: l). Qed.
Lemma clear_ops_keep c : forall ops start ops', c_pos c < start -> ends_in c ops -> clear_ops ops start = Ok ops' -> ends_in c ops'.
Proof.
  induction ops as [|d ops IH]; intros start ops' Hc [l El] H; [destruct l; discriminate|]. cbn [clear_ops] in H.
  destruct (c_pos d >=? start) eqn:E.
  - destruct l as [|x l]; cbn in El; injection El as -> ->; [lia|]. apply (IH start ops' Hc); [now exists l|exact H].
  - injection H as <-. now exists l.
Qed.
Lemma try_run_same m trgt e e1 : try_run m trgt e = Ok e1 -> e_ops e1 = e_ops e /\ e_cur e1 = e_cur e /\ e_src e1 = e_src e /\ e_min e1 = e_min e /\ e_trgt e1 = e_trgt e.
Proof.
  unfold try_run. intro H. apply bind_ok in H as (rem & _ & H). destruct (e_run e =? 4).
  - apply bind_ok in H as (rest & _ & H). injection H as <-. cbn. auto 6.
  - injection H as <-. auto 6.
Qed.
Lemma try_match_keep m src trgt mx c e e' : zlen trgt < 2 ^ 64 -> zlen src < 2 ^ 64 -> mx <= zlen trgt ->
  einv src trgt mx e -> e_st e = TryMatch -> c_pos c = 0 -> ends_in c (e_ops e) -> try_match m src trgt mx e = Ok e' -> ends_in c (e_ops e').
Proof.
  intros Hl Hls Hmx I Est Hc He H. pose proof (iv_sm _ _ _ _ I) as Hsm. rewrite Est in Hsm. cbn [is_start] in Hsm.
  unfold try_match in H. apply bind_ok in H as (e1 & H1 & H). apply try_run_same in H1 as (R1 & R2 & R3 & _).
  apply bind_ok in H as (r & Hr & H). destruct r as [e2|].
  { injection H as <-. unfold take_run in Hr. destruct (_ && _); [|discriminate]. apply bind_ok in Hr as (w & _ & Hr). apply bind_ok in Hr as (u & _ & Hr).
    injection Hr as <-. cbn [found e_ops]. apply ends_in_cons. now rewrite R1. }
  apply bind_ok in H as (r2 & Hr2 & H). destruct r2 as [e2|].
  { injection H as <-. unfold try_src in Hr2. rewrite R3 in Hr2. destruct (e_src e) as [s|]; [|discriminate]. rewrite R2 in Hr2.
    destruct (e_cur e + 9 <=? mx) eqn:E9; [|discriminate]. destruct Hsm as (M1 & M2 & M3). apply bind_ok in Hr2 as (u & _ & Hr2). apply bind_ok in Hr2 as (f & Hf & Hr2).
    destruct f as [[[sp pre] post]|]; [|discriminate]. unfold find_best_src_match in Hf. apply bind_ok in Hf as (tp & _ & Hf). destruct tp as [p|]; [|discriminate].
    apply bind_ok in Hf as (x & Hx & Hf). destruct x as [[pr po]|]; [|discriminate]. injection Hf as <- <- <-.
    apply (extend_src_sound m src _ trgt _ pr po) in Hx; auto. destruct Hx as (X1 & X2 & X3 & X4 & X5 & _).
    destruct (_ >=? e_min e1); [|discriminate]. rewrite usub_ok in Hr2 by lia. cbn [bind] in Hr2. apply bind_ok in Hr2 as (ops & Ho & Hr2).
    apply bind_ok in Hr2 as (ss & _ & Hr2). apply bind_ok in Hr2 as (u1 & _ & Hr2). apply bind_ok in Hr2 as (u2 & _ & Hr2). injection Hr2 as <-.
    cbn [found e_ops]. apply ends_in_cons. rewrite R1 in Ho. destruct (pr >? 0) eqn:Ep; [|injection Ho as <-; exact He].
    apply (clear_ops_keep c (e_ops e) (e_cur e - pr) ops); [rewrite Hc; lia|exact He|exact Ho]. }
  apply bind_ok in H as (r3 & Hr3 & H). destruct r3 as [e2|].
  { injection H as <-. unfold try_trgt in Hr3. destruct (e_trgt e1) as [t|]; [|discriminate]. destruct (_ <=? mx); [|discriminate].
    apply bind_ok in Hr3 as (u & _ & Hr3). apply bind_ok in Hr3 as (f & _ & Hr3). destruct f as [[s n]|]; [|discriminate]. destruct (n >=? _); [|discriminate].
    apply bind_ok in Hr3 as (u1 & _ & Hr3). apply bind_ok in Hr3 as (u2 & _ & Hr3). injection Hr3 as <-. cbn [found e_ops]. apply ends_in_cons. now rewrite R1. }
  injection H as <-. cbn [e_ops]. now rewrite R1.
Qed.
Lemma estep_keep m src trgt lazy mx c e e' : zlen trgt < 2 ^ 64 -> zlen src < 2 ^ 64 -> mx <= zlen trgt ->
  einv src trgt mx e -> c_pos c = 0 -> ends_in c (e_ops e) -> estep m src trgt lazy mx e = Ok e' -> ends_in c (e_ops e').
Proof.
  intros Hl Hls Hmx I Hc He H. unfold estep in H. destruct (e_st e) eqn:Est.
  - unfold start_new_match in H. apply bind_ok in H as ([run byte] & _ & H). apply bind_ok in H as (sm & _ & H). apply bind_ok in H as (tm & _ & H).
    injection H as <-. exact He.
  - exact (try_match_keep m src trgt mx c e e' Hl Hls Hmx I Est Hc He H).
  - unfold found_match in H. apply bind_ok in H as (l & _ & H). destruct (_ && _ && _); injection H as <-; exact He.
  - unfold move_forward in H. apply bind_ok in H as (x & _ & H). apply bind_ok in H as (tm & _ & H). apply bind_ok in H as (sm & _ & H). injection H as <-. exact He.
Qed.
Lemma eloop_keep m src trgt lazy mx c : Forall is_byte trgt -> zlen trgt < 2 ^ 64 -> zlen src < 2 ^ 64 -> mx <= zlen trgt -> c_pos c = 0 -> forall fuel e e',
  einv src trgt mx e -> ends_in c (e_ops e) -> eloop fuel m src trgt lazy mx e = Ok e' -> ends_in c (e_ops e').
Proof.
  intros Hb Hl Hls Hmx Hc. induction fuel as [|k IH]; intros e e' I He H; cbn [eloop] in H; destruct (e_cur e + 4 >=? mx) eqn:E; try discriminate;
    try (injection H as <-; exact He).
  apply bind_ok in H as (e1 & H1 & H). apply (IH e1 e'); [|exact (estep_keep m src trgt lazy mx c e e1 Hl Hls Hmx I Hc He H1)|exact H].
  apply (estep_inv m src trgt lazy mx e e1); auto. lia.
Qed.

(** ** The index of the source right after it is built *)
(** Only the first 9 bytes are hashed. *)
Lemma combine_take {A B} : forall (l' : list B) (l : list A) n, n = length l' -> combine l l' = combine (firstn n l) l'.
Proof. induction l' as [|b l' IH]; intros l n ->; destruct l as [|a l]; try reflexivity. cbn. f_equal. now apply IH. Qed.
Lemma large_take l : calculate_large_checksum l = calculate_large_checksum (take 9 l).
Proof. unfold calculate_large_checksum. f_equal. apply combine_take. reflexivity. Qed.

Lemma insert_get w t h p t' r : table_good w t -> 0 <= h < 2 ^ w -> 0 <= p -> table_insert t h p = Ok (t', r) ->
  table_get t' h = Ok (Some p) /\ table_good w t'.
Proof.
  intros Hg Hh Hp H. pose proof (bucket_idx_bound w t h Hg Hh) as Hb. unfold table_insert in H.
  replace ((0 <=? bucket_idx t h) && (bucket_idx t h <? t_size t)) with true in H by lia.
  pose proof (bucket_set_fst (t_buckets t (bucket_idx t h)) h p) as Hf. destruct (bucket_set _ h p) as [b r0]. cbn [fst] in Hf. subst b. injection H as <- <-.
  split; [|exact Hg]. unfold table_get. change (bucket_idx (mkTable (t_shift t) (t_mask t) (t_size t) (upd (t_buckets t) (bucket_idx t h) (mkBucket h (p + 1)))) h) with (bucket_idx t h). cbn [t_size t_buckets].
  replace ((0 <=? bucket_idx t h) && (bucket_idx t h <? t_size t)) with true by lia. unfold upd. rewrite Z.eqb_refl.
  unfold bucket_get. cbn [b_value b_hash]. replace (p + 1 =? 0) with false by lia. rewrite Z.eqb_refl. do 2 f_equal. lia.
Qed.
(** What is known of the matcher after the index at positions from [lo] on was built in descending order. *)
Definition first_indexed (s : src_matcher) (src : list Z) (lo : Z) : Prop :=
  table_get (sm_table s) (calculate_large_checksum (sub src lo 9)) = Ok (Some (lo / sm_step s)).
Lemma src_store_get m s h p s' : table_good 64 (sm_table s) -> 0 <= h < 2 ^ 64 -> 0 <= p -> 1 <= sm_step s -> src_store m s h p = Ok s' ->
  table_get (sm_table s') h = Ok (Some (p / sm_step s)) /\ table_good 64 (sm_table s') /\ sm_step s' = sm_step s /\ sm_next s' = sm_next s.
Proof.
  intros Hg Hh Hp Hs H. unfold src_store in H. apply bind_ok in H as (u & _ & H). apply bind_ok in H as ([t r] & Ht & H). injection H as <-.
  destruct (insert_get 64 _ _ _ _ _ Hg Hh (Z.div_pos p (sm_step s) ltac:(lia) ltac:(lia)) Ht) as [A B]. cbn. auto.
Qed.
Lemma hash_steps_first m src lo : 0 <= lo -> forall n s s', table_good 64 (sm_table s) -> 1 <= sm_step s -> hash_steps (S n) m s src lo = Ok s' ->
  first_indexed s' src lo /\ sm_next s' = sm_next s.
Proof.
  intro Hlo. induction n as [|n IH]; intros s s' Hg Hs H.
  - cbn [hash_steps] in H. apply bind_ok in H as (w & Hw & H). apply bind_ok in H as (s1 & H1 & H). injection H as <-.
    apply slice_inv in Hw as (_ & _ & ->). replace (lo + Z.of_nat 0 * sm_step s) with lo in H1 by lia. replace (lo + 9 - lo) with 9 in H1 by lia.
    apply src_store_get in H1 as (A & B & C & D); auto; [|apply large_range]. unfold first_indexed. rewrite C. auto.
  - cbn [hash_steps] in H. apply bind_ok in H as (w & Hw & H). apply bind_ok in H as (s1 & H1 & H).
    apply src_store_get in H1 as (A & B & C & D); auto; [|apply large_range|apply Z.add_nonneg_nonneg; [lia|apply Z.mul_nonneg_nonneg; lia]]. specialize (IH s1 s' B ltac:(lia)). cbn [hash_steps] in IH. specialize (IH H).
    destruct IH as [G1 G2]. split; [exact G1|congruence].
Qed.
Lemma hash_roll_first m src lo : 0 <= lo -> forall n s s' h, table_good 64 (sm_table s) -> 1 <= sm_step s -> lo mod sm_step s = 0 -> (n <> 0)%nat ->
  h = calculate_large_checksum (sub src (lo + Z.of_nat n) 9) -> lo + Z.of_nat n + 9 <= zlen src -> hash_roll n m s src lo h = Ok s' ->
  first_indexed s' src lo /\ sm_next s' = sm_next s.
Proof.
  intro Hlo. induction n as [|n IH]; intros s s' h Hg Hs Hm Hn Hh Hle H; [congruence|].
  cbn [hash_roll] in H. apply bind_ok in H as (old & Ho & H). apply bind_ok in H as (new & Hw & H).
  assert (Hpos : lo + Z.of_nat (S n) = lo + Z.of_nat n + 1) by lia. rewrite Hpos in *.
  destruct (C38_rolling_equals_fresh src (lo + Z.of_nat n) new old) as [C38 _]. destruct (C38 ltac:(lia) ltac:(lia) Hw Ho) as [_ Eb].
  rewrite Hh, Eb in H. apply bind_ok in H as (s1 & H1 & H).
  assert (G : table_good 64 (sm_table s1) /\ sm_step s1 = sm_step s /\ sm_next s1 = sm_next s).
  { destruct (_ mod _ =? 0); [|injection H1 as <-; auto]. apply src_store_get in H1 as (A & B & C & D); auto; [apply large_range|lia]. }
  destruct G as (G1 & G2 & G3). destruct n as [|n].
  - cbn [hash_roll] in H. injection H as <-. replace (lo + Z.of_nat 0) with lo in * by lia. rewrite Hm in H1. cbn [Z.eqb] in H1.
    apply src_store_get in H1 as (A & B & C & D); auto; [|apply large_range]. unfold first_indexed. rewrite C. auto.
  - apply (IH s1 s' _ G1 ltac:(lia) ltac:(rewrite G2; exact Hm) ltac:(discriminate) eq_refl ltac:(lia)) in H as [A B]. split; [exact A|congruence].
Qed.
Lemma align_mul p step : 1 <= step -> align p step = step * (p / step).
Proof. intro H. unfold align. pose proof (Z.div_mod p step ltac:(lia)). lia. Qed.
(** What [src_build] (at the start of the target) hands to [add_start_positions]. *)
Lemma src_build_inv m c src trgt s : zlen src < 2 ^ 63 -> 0 <= sc_step c -> src_build m c src 0 trgt = Ok s ->
  exists hash pos tb half, let step := Z.max (sc_step c) 1 in
    let s0 := mkSM step hash pos (Z.max 0 (zlen trgt - 9)) tb (zlen src) (zlen trgt) half (align (Z.max 0 (zlen src - 9)) step) 0 0 0 in
    2 ^ 19 <= half /\ table_good 64 tb /\ (forall i, t_buckets tb i = empty_bucket) /\ add_start_positions m s0 0 src = Ok s /\
    (10 <= zlen trgt -> pos = 0 /\ hash = calculate_large_checksum (sub trgt 0 9)).
Proof.
  intros Hl Hst H. unfold src_build in H. cbv zeta in H. apply bind_ok in H as (win & Hw & H). apply bind_ok in H as ([hash pos] & Hh & H).
  destruct (next_pow2_ok m (zlen src) ltac:(lia)) as (k & Ek & Hk & _). rewrite Ek in H. cbn [bind] in H.
  apply bind_ok in H as (tb & Ht & H).
  assert (Hwin : 2 ^ 20 <= win).
  { destruct (sc_win c) as [n|]; [|injection Hw as <-; vm_compute; discriminate]. apply bind_ok in Hw as (p & _ & Hw). injection Hw as <-. unfold MIN_SRC_WIN_SIZE. lia. }
  exists hash, pos, tb, (Z.shiftr win 1). cbv zeta. split.
  { rewrite Z.shiftr_div_pow2 by lia. apply Z.div_le_lower_bound; lia. }
  destruct (table_new_ok m (Z.min (Z.shiftr (2 ^ k) 1) win / Z.max (sc_step c) 1) false) as (tb' & Et & Hg & Hb & _).
  { pose proof (shiftr1_range k Hk). split; [apply Z.div_pos; lia|]. apply Z.div_lt_upper_bound; [lia|]. nia. }
  rewrite Et in Ht. injection Ht as ->. split; [exact Hg|]. split; [intro i; rewrite Hb; reflexivity|]. split; [exact H|].
  intro H10. destruct (0 <? Z.max 0 (zlen trgt - 9)) eqn:E0; [|lia]. apply bind_ok in Hh as (w & Hs & Hh). apply slice_inv in Hs as (_ & _ & ->).
  injection Hh as <- <-. auto.
Qed.
Lemma src_build_first m c src trgt s : zlen src < 2 ^ 63 -> 0 <= sc_step c -> indexable (Z.max (sc_step c) 1) (zlen src) -> 10 <= zlen trgt ->
  src_build m c src 0 trgt = Ok s ->
  table_get (sm_table s) (calculate_large_checksum (sub src 0 9)) = Ok (Some 0) /\ sm_pos s = 0 /\ sm_hash s = calculate_large_checksum (sub trgt 0 9) /\
  sm_max s = zlen trgt - 9 /\ 0 < sm_next s /\ 1 <= sm_step s.
Proof.
  intros Hl Hst Hi H10 H. destruct (src_build_inv m c src trgt s Hl Hst H) as (hash & pos & tb & half & H'). cbv zeta in H'. destruct H' as (Hh & Hg & _ & Ha & Hp).
  destruct (Hp H10) as [-> ->]. set (step := Z.max (sc_step c) 1) in *. assert (Hs1 : 1 <= step) by (unfold step; lia). clearbody step.
  pose proof (add_start_same _ _ _ _ _ Ha) as (S1 & S2 & S3 & S4). cbn [sm_pos sm_max sm_step sm_hash] in S1, S2, S3, S4.
  assert (G : first_indexed s src 0 /\ 0 < sm_next s).
  { unfold add_start_positions in Ha. cbn [sm_next] in Ha. replace (0 <? 0) with false in Ha by reflexivity.
    unfold window_range in Ha. cbn [sm_half sm_max_end] in Ha. replace (0 <? half) with true in Ha by lia. cbn [bind] in Ha.
    set (me := align (Z.max 0 (zlen src - 9)) step) in *. set (hi := Z.min (2 * half) me) in *.
    apply bind_ok in Ha as (u & _ & Ha). cbn [sm_set_next sm_step sm_max_end sm_half] in Ha.
    unfold indexable in Hi. destruct (9 <=? step) eqn:E9.
    - replace (step >=? 9) with true in Ha by lia.
      assert (Hme : step <= me).
      { unfold me. rewrite Z.max_r, align_mul by lia. assert (1 <= (zlen src - 9) / step) by (apply Z.div_le_lower_bound; lia). nia. }
      assert (Hn : 1 <= (hi - 0 + step - 1) / step) by (apply Z.div_le_lower_bound; lia).
      destruct (Z.to_nat ((hi - 0 + step - 1) / step)) as [|n] eqn:En; [lia|].
      apply hash_steps_first in Ha as [A B]; cbn [sm_table sm_step sm_next] in *; auto; [|lia]. split; [exact A|]. rewrite B. unfold USIZE_MAX, sm_set_next; cbn [sm_next]. destruct (_ >=? _); lia.
    - replace (step >=? 9) with false in Ha by lia. rewrite <- align_mul in Hi by lia.
      assert (Hme : me = align (zlen src - 9) step) by (unfold me; rewrite Z.max_r; [reflexivity|]; destruct (align_bounds (Z.max 0 (zlen src - 9)) step Hs1 ltac:(lia)) as (B1 & _);
        assert (Z.le 0 (zlen src - 9) \/ zlen src - 9 < 0) as [|Hneg] by lia; [lia|]; exfalso; rewrite align_mul in Hi by lia; assert ((zlen src - 9) / step < 0) by (apply Z.div_lt_upper_bound; lia); nia).
      assert (H09 : 0 <= zlen src - 9) by (destruct (Z.le_gt_cases 0 (zlen src - 9)); [assumption|]; exfalso; rewrite align_mul in Hi by lia; assert ((zlen src - 9) / step < 0) by (apply Z.div_lt_upper_bound; lia); nia).
      destruct (align_bounds (zlen src - 9) step Hs1 H09) as (B1 & B2 & B3).
      assert (Hhi : 9 + step <= hi) by lia. replace (Z.max 0 (hi - 9)) with (hi - 9) in Ha by lia.
      destruct (align_bounds (hi - 9) step Hs1 ltac:(lia)) as (L1 & L2 & L3). set (last := align (hi - 9) step) in *.
      assert (Hlast : 1 <= last) by lia.
      apply bind_ok in Ha as (w & Hw & Ha). apply slice_inv in Hw as (W1 & W2 & ->).
      apply hash_roll_first in Ha as [A B]; cbn [sm_table sm_step sm_next] in *; auto; try lia.
      + split; [exact A|]. rewrite B. unfold USIZE_MAX, sm_set_next; cbn [sm_next]. destruct (_ >=? _); lia.
      + rewrite large_take, take_sub by lia. do 2 f_equal. lia. }
  destruct G as [G1 G2]. unfold first_indexed in G1. rewrite Z.div_0_l in G1 by lia. split; [exact G1|]. split; [exact S1|]. split; [exact S4|]. split; [lia|]. split; [exact G2|lia].
Qed.

(** ** The first match *)
Definition first4_differ (trgt : list Z) : Prop := forall b, sub trgt 0 4 <> rep b 4.
Lemma initial_run_differ trgt run byte last : first4_differ trgt -> Forall is_byte trgt -> is_byte last -> initial_run 4 trgt 0 0 last = Ok (run, byte) -> 0 <= run < 4.
Proof.
  intros Hd Hb Hl H. apply (initial_run_ok trgt Hb 4%nat 0 0 last run byte ltac:(lia) ltac:(lia) Hl) in H.
  - destruct H as (H1 & H2 & H3 & H4). change (Z.of_nat 4) with 4 in *. destruct (Z.eq_dec run 4) as [->|]; [|lia].
    exfalso. apply (Hd byte). exact H4.
  - now rewrite sub_0, rep_0 by lia.
Qed.
Lemma extend_prefix m src trgt L r : zlen src < 2 ^ 64 -> zlen trgt < 2 ^ 64 -> 9 <= L <= zlen src -> L <= zlen trgt -> sub src 0 L = sub trgt 0 L ->
  extend_src_match m src 0 trgt 0 = Ok r -> exists post, r = Some (0, post) /\ L <= post + 9.
Proof.
  intros Hs Ht HL HLt Heq H. unfold extend_src_match in H. rewrite !slice_ok in H by lia. cbn [bind] in H.
  replace (0 + 9 - 0) with 9 in H by lia.
  assert (E9 : sub src 0 9 = sub trgt 0 9) by (rewrite <- (take_sub src 0 L 9), <- (take_sub trgt 0 L 9) by lia; now rewrite Heq).
  rewrite E9 in H. replace (list_eqb (sub trgt 0 9) (sub trgt 0 9)) with true in H by (symmetry; now apply list_eqb_eq). cbn [negb] in H.
  rewrite !usub_ok in H by lia. cbn [bind] in H. replace (Z.min 0 0 - 1) with (-1) in H by lia. rewrite !(take_0 (-1)) in H by lia. cbn [lcp] in H.
  injection H as <-. eexists. split; [reflexivity|].
  replace (0 + 9) with 9 by lia. set (n := Z.min (zlen src - 9) (zlen trgt - 9)).
  destruct (lcp_sub src trgt 9 9 n ltac:(lia) ltac:(lia) ltac:(lia)) as [B1 B2].
  pose proof (lcp_sub_max src trgt 9 9 n ltac:(lia) ltac:(lia) ltac:(lia) ltac:(lia) ltac:(lia)) as B.
  set (k := lcp (sub src 9 n) (sub trgt 9 n)) in *.
  destruct (Z.le_gt_cases L (k + 9)) as [|Hlt]; [assumption|exfalso].
  destruct B as [B|B]; [lia|]. apply B. 
  assert (Hi : forall l : list Z, L <= zlen l -> idx l (9 + k) = idx (sub l 0 L) (9 + k)).
  { intros l Hl. rewrite idx_sub by lia. reflexivity. }
  rewrite (Hi src), (Hi trgt) by lia. now rewrite Heq.
Qed.
Lemma first_match m src trgt s tm L e1 e2 : Forall is_byte trgt -> zlen src < 2 ^ 64 -> zlen trgt < 2 ^ 64 ->
  9 <= L <= zlen src -> L <= zlen trgt -> 10 <= zlen trgt -> sub src 0 L = sub trgt 0 L -> first4_differ trgt ->
  table_get (sm_table s) (calculate_large_checksum (sub src 0 9)) = Ok (Some 0) -> sm_pos s = 0 -> sm_hash s = calculate_large_checksum (sub trgt 0 9) ->
  sm_max s = zlen trgt - 9 -> 0 < sm_next s ->
  start_new_match m src trgt (mkE [] 0 4 0 0 StartNewMatch (Some s) tm) = Ok e1 -> try_match m src trgt (zlen trgt) e1 = Ok e2 ->
  e_st e1 = TryMatch /\ e_cur e1 = 0 /\ e_cur e2 = 0 /\ exists L', e_ops e2 = [MSrc 0 L' 0] /\ e_st e2 = FoundMatch L' /\ L <= L'.
Proof.
  intros Hb Hs Ht HL HLt H10 Heq Hd T1 T2 T3 T4 T5 H1 H2.
  assert (E9 : sub src 0 9 = sub trgt 0 9) by (rewrite <- (take_sub src 0 L 9), <- (take_sub trgt 0 L 9) by lia; now rewrite Heq).
  unfold start_new_match in H1. cbn [e_cur e_byte e_src e_trgt e_ops opt_map] in H1. apply bind_ok in H1 as ([run byte] & Hr & H1).
  apply initial_run_differ in Hr; auto; [|unfold is_byte; lia].
  apply bind_ok in H1 as (os & Hos & H1). apply bind_ok in Hos as (s' & Hs' & Hos). injection Hos as <-.
  unfold src_seek in Hs'. replace (sm_next s <=? 0) with false in Hs' by lia. cbn [bind] in Hs'. rewrite T2, T4 in Hs'.
  replace (0 <? zlen trgt - 9) with true in Hs' by lia. replace (0 + 9 >? 0) with true in Hs' by reflexivity. change (Z.to_nat (0 - 0)) with O in Hs'. cbn [roll_large bind] in Hs'.
  injection Hs' as <-. apply bind_ok in H1 as (ot & _ & H1). injection H1 as <-. cbn [last_end e_ops]. replace (0 >? 0) with false in * by reflexivity.
  split; [reflexivity|]. split; [reflexivity|].
  unfold try_match in H2. cbn [e_run] in H2. apply bind_ok in H2 as (e1 & H1 & H2).
  unfold try_run in H1. cbn [e_run e_cur] in H1. apply bind_ok in H1 as (rem & _ & H1). replace (run =? 4) with false in * by lia. injection H1 as <-.
  unfold take_run in H2. cbn [andb bind] in H2.
  unfold try_src in H2. cbn [e_src e_cur] in H2. replace (0 + 9 <=? zlen trgt) with true in H2 by lia.
  apply bind_ok in H2 as (r & Hr2 & H2). apply bind_ok in Hr2 as (u & _ & Hr2). apply bind_ok in Hr2 as (f & Hf & Hr2).
  unfold find_best_src_match in Hf. cbn [sm_set_fwd sm_table sm_hash sm_step sm_pos] in Hf. rewrite T3, <- E9, T1 in Hf. cbn [bind] in Hf.
  apply bind_ok in Hf as (x & Hx & Hf). replace (0 * sm_step s) with 0 in * by lia.
  apply (extend_prefix m src trgt L x) in Hx; auto. destruct Hx as (post & -> & Hpost). injection Hf as <-. cbn [e_min] in Hr2.
  replace (post + 9 >=? 4) with true in Hr2 by lia. change (usub m 0 0) with (usub m 0 0) in Hr2. rewrite !usub_ok in Hr2 by lia. cbn [bind] in Hr2.
  replace (0 >? 0) with false in Hr2 by reflexivity. cbn [bind e_ops] in Hr2. apply bind_ok in Hr2 as (u1 & _ & Hr2). apply bind_ok in Hr2 as (u2 & _ & Hr2).
  injection Hr2 as <-. injection H2 as <-. cbn [found e_cur e_ops e_st]. split; [reflexivity|]. exists (0 + (post + 9)).
  replace (0 - 0) with 0 by lia. split; [reflexivity|]. split; [f_equal; lia|lia].
Qed.

(** ** The candidates of the whole inner encoder *)
Lemma encode_inner_unfold m c src trgt : (ic_src c <> None \/ ic_trgt c <> None) -> 0 < zlen src -> 0 < zlen trgt ->
  encode_inner m c src trgt =
      (let '(ops, cur, mx) := naive_tests (ic_naive c) src trgt in
      do tm <- match ic_trgt c with None => Ok None | Some tc => do t <- trgt_build m tc trgt cur; Ok (Some t) end;
      do sm <- match ic_src c with None => Ok None | Some sc => do s <- src_build m sc src cur trgt; Ok (Some s) end;
      let lazy := match ic_lazy c with Some n => n | None => 90 end in
      let e := mkE ops cur 4 0 0 StartNewMatch sm tm in
      do e <- eloop (4 * length trgt + 4) m src trgt lazy mx e;
      do _ <- assert_ (e_cur e <=? zlen trgt);
      let ops := rev (e_ops e) in
      Ok (if mx <? zlen trgt then ops ++ [MSrc 0 (zlen src) mx] else ops)).
Proof.
  intros Hc Hs Ht. unfold encode_inner. replace (zlen src =? 0) with false by lia. replace (zlen trgt =? 0) with false by lia. cbn [andb].
  destruct (ic_src c), (ic_trgt c); try reflexivity. destruct Hc as [H|H]; now contradiction H.
Qed.
Lemma einv_start src trgt t ops cur mx tm sm : naive_tests t src trgt = (ops, cur, mx) -> sm_rel trgt cur true sm -> tm_rel trgt cur true tm ->
  einv src trgt mx (mkE ops cur 4 0 0 StartNewMatch sm tm).
Proof.
  intros En Hsm Htm. destruct (naive_tests_ok src trgt _ _ _ _ En) as (N1 & N2 & N3 & N4 & N5 & N6 & _ & N7).
  constructor; cbn [e_cur e_min e_byte e_ops e_st e_src e_trgt is_start]; auto; try lia.
  - unfold is_byte. lia.
  - destruct ops; [exact I|]. cbn in *. lia.
  - destruct ops; [exact I|]. cbn in *. lia.
Qed.
Lemma build_rels m c src trgt cur tm sm : 0 <= cur ->
  match ic_trgt c with None => Ok None | Some tc => do t <- trgt_build m tc trgt cur; Ok (Some t) end = Ok tm ->
  match ic_src c with None => Ok None | Some sc => do s <- src_build m sc src cur trgt; Ok (Some s) end = Ok sm ->
  tm_rel trgt cur true tm /\ sm_rel trgt cur true sm.
Proof.
  intros Hc Ht Hs. split.
  - destruct (ic_trgt c) as [tc|]; [|injection Ht as <-; exact I]. apply bind_ok in Ht as (t & E & Ht). injection Ht as <-. now apply (trgt_build_rel m tc).
  - destruct (ic_src c) as [sc|]; [|injection Hs as <-; exact I]. apply bind_ok in Hs as (s & E & Hs). injection Hs as <-. now apply (src_build_rel m sc src).
Qed.
Lemma encode_inner_prefix m c src trgt sc L cs : Forall is_byte trgt -> zlen trgt < 2 ^ 63 -> zlen src < 2 ^ 63 -> ic_src c = Some sc -> ic_naive c = None ->
  0 <= sc_step sc -> indexable (Z.max (sc_step sc) 1) (zlen src) -> 10 <= zlen trgt -> 9 <= L <= zlen src -> L <= zlen trgt -> sub src 0 L = sub trgt 0 L ->
  first4_differ trgt -> encode_inner m c src trgt = Ok cs -> exists L' rest, cs = MSrc 0 L' 0 :: rest /\ L <= L'.
Proof.
  intros Hb Ht Hs Esc Env Hst Hix H10 HL HLt Heq Hd H. rewrite encode_inner_unfold in H by (try (left; rewrite Esc; discriminate); lia).
  rewrite Env, Esc in H. assert (En : naive_tests None src trgt = ([], 0, zlen trgt)) by (unfold naive_tests; destruct (_ >? _); reflexivity). rewrite En in H.
  apply bind_ok in H as (tm & Htm & H). apply bind_ok in H as (sm & Hsm & H). apply bind_ok in Hsm as (s & Hsb & Hsm). injection Hsm as <-.
  cbv zeta in H. apply bind_ok in H as (e & He & H). apply bind_ok in H as (u & _ & H). replace (zlen trgt <? zlen trgt) with false in H by lia. injection H as <-.
  destruct (src_build_first m sc src trgt s Hs Hst Hix H10 Hsb) as (T1 & T2 & T3 & T4 & T5 & T6).
  assert (R : tm_rel trgt 0 true tm /\ sm_rel trgt 0 true (Some s)) by (apply (build_rels m c src); [lia|exact Htm|rewrite Esc, Hsb; reflexivity]).
  destruct R as [R1 R2]. pose proof (einv_start src trgt None [] 0 (zlen trgt) tm (Some s) En R2 R1) as I0.
  set (lazy := match ic_lazy c with Some n => n | None => 90 end) in *.
  replace (4 * length trgt + 4)%nat with (S (S (4 * length trgt + 2)))%nat in He by lia. remember (4 * length trgt + 2)%nat as fuel eqn:Ef. clear Ef.
  cbn [eloop] in He. cbn [e_cur] in He. replace (0 + 4 >=? zlen trgt) with false in He by lia. apply bind_ok in He as (e1 & H1 & He).
  unfold estep in H1. cbn [e_st] in H1. destruct (e_cur e1 + 4 >=? zlen trgt) eqn:E1.
  { assert (e_cur e1 = 0); [|lia]. unfold start_new_match in H1. apply bind_ok in H1 as ([a b] & _ & H1). apply bind_ok in H1 as (x & _ & H1).
    apply bind_ok in H1 as (y & _ & H1). injection H1 as <-. reflexivity. }
  apply bind_ok in He as (e2 & H2 & He).
  assert (I1 : einv src trgt (zlen trgt) e1).
  { apply (start_new_match_inv m src trgt (zlen trgt) _ e1 Hb) in H1; auto; try lia. cbn [e_cur]. lia. }
  assert (St1 : e_st e1 = TryMatch).
  { unfold start_new_match in H1. apply bind_ok in H1 as ([a b] & _ & H1). apply bind_ok in H1 as (x & _ & H1).
    apply bind_ok in H1 as (y & _ & H1). injection H1 as <-. reflexivity. }
  unfold estep in H2. rewrite St1 in H2.
  assert (I2 : einv src trgt (zlen trgt) e2).
  { apply (try_match_inv m src trgt (zlen trgt) e1 e2); auto; lia. }
  destruct (first_match m src trgt s tm L e1 e2) as (_ & _ & _ & L' & Eo & _ & HLL); auto; try lia.
  destruct (eloop_keep m src trgt lazy (zlen trgt) (MSrc 0 L' 0) Hb ltac:(lia) ltac:(lia) ltac:(lia) eq_refl fuel e2 e I2) as (l & El); [exists []; exact Eo|exact He|].
  exists L', (rev l). rewrite El, rev_app_distr. split; [reflexivity|exact HLL].
Qed.
Lemma encode_inner_append m c src trgt ops mx cs : Forall is_byte trgt -> zlen trgt < 2 ^ 63 -> zlen src < 2 ^ 63 -> (ic_src c <> None \/ ic_trgt c <> None) -> 0 < zlen src -> 0 < zlen trgt ->
  naive_tests (ic_naive c) src trgt = (MSrc 0 (zlen src) 0 :: ops, zlen src, mx) -> ops = [] -> mx = zlen trgt ->
  encode_inner m c src trgt = Ok cs -> exists rest, cs = MSrc 0 (zlen src) 0 :: rest.
Proof.
  intros Hb Ht Hs Hc Hs0 Ht0 En -> -> H. rewrite encode_inner_unfold in H by (auto; lia). rewrite En in H.
  apply bind_ok in H as (tm & Htm & H). apply bind_ok in H as (sm & Hsm & H).
  cbv zeta in H. apply bind_ok in H as (e & He & H). apply bind_ok in H as (u & _ & H). replace (zlen trgt <? zlen trgt) with false in H by lia. injection H as <-.
  destruct (build_rels m c src trgt (zlen src) tm sm ltac:(lia) Htm Hsm) as [R1 R2]. pose proof (einv_start src trgt _ _ _ _ tm sm En R2 R1) as I0.
  assert (He0 : ends_in (MSrc 0 (zlen src) 0) [MSrc 0 (zlen src) 0]) by (exists []; reflexivity).
  destruct (eloop_keep m src trgt (match ic_lazy c with Some n => n | None => 90 end) (zlen trgt) (MSrc 0 (zlen src) 0) Hb ltac:(lia) ltac:(lia) ltac:(lia) eq_refl _ _ e I0 He0 He) as (l & El).
  exists (rev l). rewrite El, rev_app_distr. reflexivity.
Qed.
Lemma encode_inner_prepend m c src trgt mx cs : (ic_src c <> None \/ ic_trgt c <> None) -> 0 < zlen src -> 0 < zlen trgt ->
  naive_tests (ic_naive c) src trgt = ([], 0, mx) -> mx < zlen trgt ->
  encode_inner m c src trgt = Ok cs -> exists l, cs = l ++ [MSrc 0 (zlen src) mx].
Proof.
  intros Hc Hs0 Ht0 En Hmx H. rewrite encode_inner_unfold in H by (auto; lia). rewrite En in H.
  apply bind_ok in H as (tm & Htm & H). apply bind_ok in H as (sm & Hsm & H).
  cbv zeta in H. apply bind_ok in H as (e & He & H). apply bind_ok in H as (u & _ & H). replace (mx <? zlen trgt) with true in H by lia. injection H as <-.
  eexists. reflexivity.
Qed.

(** ** A source too short to be indexed *)
Lemma src_build_empty m c src trgt s : zlen src < 2 ^ 63 -> 0 <= sc_step c -> ~ indexable (Z.max (sc_step c) 1) (zlen src) -> src_build m c src 0 trgt = Ok s ->
  (forall i, t_buckets (sm_table s) i = empty_bucket) /\ sm_next s = USIZE_MAX.
Proof.
  intros Hl Hst Hi H. destruct (src_build_inv m c src trgt s Hl Hst H) as (hash & pos & tb & half & H'). cbv zeta in H'. destruct H' as (Hh & Hg & Hb & Ha & _).
  set (step := Z.max (sc_step c) 1) in *. assert (Hs1 : 1 <= step) by (unfold step; lia). clearbody step.
  unfold add_start_positions in Ha. cbn [sm_next] in Ha. replace (0 <? 0) with false in Ha by reflexivity.
  unfold window_range in Ha. cbn [sm_half sm_max_end] in Ha. replace (0 <? half) with true in Ha by lia. cbn [bind] in Ha.
  set (me := align (Z.max 0 (zlen src - 9)) step) in *. pose proof (zlen_nonneg src).
  destruct (align_bounds (Z.max 0 (zlen src - 9)) step Hs1 ltac:(lia)) as (B1 & B2 & B3). fold me in B1, B2, B3.
  apply bind_ok in Ha as (u & _ & Ha). cbn [sm_set_next sm_step sm_max_end sm_half] in Ha.
  unfold indexable in Hi. destruct (9 <=? step) eqn:E9.
  - replace (step >=? 9) with true in Ha by lia.
    assert (Hme : me = 0).
    { destruct (Z.le_gt_cases (zlen src) 9); [lia|]. unfold me. rewrite align_mul by lia. rewrite Z.div_small by lia. lia. }
    rewrite Hme in Ha. replace (Z.min (2 * half) 0) with 0 in Ha by lia. replace ((0 - 0 + step - 1) / step) with 0 in Ha by (symmetry; apply Z.div_small; lia).
    cbn [Z.to_nat hash_steps] in Ha. injection Ha as <-. unfold sm_set_next. cbn [sm_table sm_next]. split; [exact Hb|]. reflexivity.
  - replace (step >=? 9) with false in Ha by lia.
    assert (Hme : me < 9 + step).
    { destruct (Z.le_gt_cases (zlen src) 9); [lia|]. unfold me in *. rewrite Z.max_r in * by lia. rewrite align_mul in * by lia. lia. }
    assert (Ehi : Z.min (2 * half) me = me) by lia. rewrite Ehi in Ha.
    assert (El : align (Z.max 0 (me - 9)) step = 0) by (rewrite align_mul by lia; rewrite Z.div_small by lia; lia). rewrite El in Ha.
    apply bind_ok in Ha as (w & _ & Ha). cbn [Z.sub Z.to_nat hash_roll] in Ha. change (Z.to_nat (0 - 0)) with O in Ha. cbn [hash_roll] in Ha. injection Ha as <-.
    unfold sm_set_next. cbn [sm_table sm_next]. split; [exact Hb|]. replace (me >=? me) with true by lia. reflexivity.
Qed.
(** No candidate in the source, and the index stays empty. *)
Definition no_src (e : est) : Prop := Forall (fun c => match c with MSrc _ _ _ => False | _ => True end) (e_ops e) /\
  match e_src e with Some s => (forall i, t_buckets (sm_table s) i = empty_bucket) /\ sm_next s = USIZE_MAX | None => True end.
Lemma table_get_empty t h r : (forall i, t_buckets t i = empty_bucket) -> table_get t h = Ok r -> r = None.
Proof. intros Hb H. unfold table_get in H. destruct (_ && _); [|discriminate]. rewrite Hb in H. now injection H as <-. Qed.
Lemma estep_no_src m src trgt lazy mx e e' : zlen trgt < 2 ^ 63 -> 0 <= e_cur e <= zlen trgt -> no_src e -> estep m src trgt lazy mx e = Ok e' -> no_src e'.
Proof.
  intros Hl Hc [N1 N2] H. unfold estep in H. destruct (e_st e).
  - unfold start_new_match in H. apply bind_ok in H as ([run byte] & _ & H). apply bind_ok in H as (sm & Hsm & H). apply bind_ok in H as (tm & _ & H).
    injection H as <-. split; [exact N1|]. cbn [e_src]. destruct (e_src e) as [s|]; cbn [opt_map] in Hsm; [|injection Hsm as <-; exact I].
    apply bind_ok in Hsm as (s' & Hs' & Hsm). injection Hsm as <-. unfold src_seek in Hs'. destruct N2 as [N2 N3]. rewrite N3 in Hs'. unfold USIZE_MAX in Hs'.
    replace (2 ^ 64 - 1 <=? e_cur e) with false in Hs' by lia. cbn [bind] in Hs'. destruct (sm_pos s <? sm_max s); [|injection Hs' as <-; auto].
    apply bind_ok in Hs' as (h & _ & Hs'). injection Hs' as <-. unfold sm_set_fwd. cbn [sm_table sm_next]. auto.
  - unfold try_match in H. apply bind_ok in H as (e1 & H1 & H). apply try_run_same in H1 as (R1 & R2 & R3 & _).
    assert (N : no_src e1) by (split; [rewrite R1|rewrite R3]; assumption). clear N1 N2 R1 R2 R3. destruct N as [N1 N2].
    apply bind_ok in H as (r & Hr & H). destruct r as [e2|].
    { injection H as <-. unfold take_run in Hr. destruct (_ && _); [|discriminate]. apply bind_ok in Hr as (w & _ & Hr). apply bind_ok in Hr as (u & _ & Hr).
      injection Hr as <-. split; [|exact N2]. cbn [found e_ops]. now constructor. }
    apply bind_ok in H as (r2 & Hr2 & H). destruct r2 as [e2|].
    { exfalso. unfold try_src in Hr2. destruct (e_src e1) as [s|]; [|discriminate]. destruct (_ <=? mx); [|discriminate].
      apply bind_ok in Hr2 as (u & _ & Hr2). apply bind_ok in Hr2 as (f & Hf & Hr2). unfold find_best_src_match in Hf. apply bind_ok in Hf as (tp & Htp & Hf).
      apply table_get_empty in Htp; [|apply N2]. subst tp. injection Hf as <-. discriminate. }
    apply bind_ok in H as (r3 & Hr3 & H). destruct r3 as [e2|].
    { injection H as <-. unfold try_trgt in Hr3. destruct (e_trgt e1) as [t|]; [|discriminate]. destruct (_ <=? mx); [|discriminate].
      apply bind_ok in Hr3 as (u & _ & Hr3). apply bind_ok in Hr3 as (f & _ & Hr3). destruct f as [[s n]|]; [|discriminate]. destruct (n >=? _); [|discriminate].
      apply bind_ok in Hr3 as (u1 & _ & Hr3). apply bind_ok in Hr3 as (u2 & _ & Hr3). injection Hr3 as <-. split; [|exact N2]. cbn [found e_ops]. now constructor. }
    injection H as <-. split; assumption.
  - unfold found_match in H. apply bind_ok in H as (l & _ & H). destruct (_ && _ && _); injection H as <-; split; assumption.
  - unfold move_forward in H. apply bind_ok in H as (x & _ & H). apply bind_ok in H as (tm & _ & H). apply bind_ok in H as (sm & Hsm & H). injection H as <-.
    split; [exact N1|]. cbn [e_src]. destruct (e_src e) as [s|]; cbn [opt_map] in Hsm; [|injection Hsm as <-; exact I].
    apply bind_ok in Hsm as (s' & Hs' & Hsm). injection Hsm as <-. unfold src_forward in Hs'. destruct (sm_pos s <? sm_max s); [|injection Hs' as <-; exact N2].
    apply bind_ok in Hs' as (a & _ & Hs'). apply bind_ok in Hs' as (b & _ & Hs'). injection Hs' as <-. exact N2.
Qed.
Lemma eloop_no_src m src trgt lazy mx : Forall is_byte trgt -> zlen trgt < 2 ^ 63 -> zlen src < 2 ^ 63 -> mx <= zlen trgt -> forall fuel e e',
  einv src trgt mx e -> no_src e -> eloop fuel m src trgt lazy mx e = Ok e' -> no_src e'.
Proof.
  intros Hb Hl Hls Hmx. induction fuel as [|k IH]; intros e e' I N H; cbn [eloop] in H; destruct (e_cur e + 4 >=? mx) eqn:E; try discriminate;
    try (injection H as <-; exact N).
  apply bind_ok in H as (e1 & H1 & H). apply (IH e1 e'); [| |exact H].
  - apply (estep_inv m src trgt lazy mx e e1); auto; lia.
  - apply (estep_no_src m src trgt lazy mx e e1); auto. apply (iv_cur _ _ _ _ I).
Qed.
Lemma encode_inner_no_src m c src trgt cs : Forall is_byte trgt -> zlen trgt < 2 ^ 63 -> zlen src < 2 ^ 63 -> ic_naive c = None ->
  match ic_src c with Some sc => 0 <= sc_step sc /\ ~ indexable (Z.max (sc_step sc) 1) (zlen src) | None => True end ->
  encode_inner m c src trgt = Ok cs -> Forall (fun c => match c with MSrc _ _ _ => False | _ => True end) cs.
Proof.
  intros Hb Ht Hs Env Hix H. destruct (Z.eq_dec (zlen trgt) 0) as [Ez|Ez].
  { unfold encode_inner in H. rewrite Ez in H. change (0 =? 0) with true in H. destruct (ic_src c), (ic_trgt c), (zlen src =? 0); cbn [andb] in H; injection H as <-; constructor. }
  assert (Hz : 0 < zlen trgt) by (pose proof (zlen_nonneg trgt); lia).
  assert (H' : cs = [] \/ (let '(ops, cur, mx) := naive_tests (ic_naive c) src trgt in
      do tm <- match ic_trgt c with None => Ok None | Some tc => do t <- trgt_build m tc trgt cur; Ok (Some t) end;
      do sm <- match ic_src c with None => Ok None | Some sc => do s <- src_build m sc src cur trgt; Ok (Some s) end;
      let lazy := match ic_lazy c with Some n => n | None => 90 end in
      let e := mkE ops cur 4 0 0 StartNewMatch sm tm in
      do e <- eloop (4 * length trgt + 4) m src trgt lazy mx e;
      do _ <- assert_ (e_cur e <=? zlen trgt);
      let ops := rev (e_ops e) in
      Ok (if mx <? zlen trgt then ops ++ [MSrc 0 (zlen src) mx] else ops)) = Ok cs).
  { unfold encode_inner in H. replace (zlen trgt =? 0) with false in H by lia. destruct (ic_src c), (ic_trgt c), (zlen src =? 0); cbn [andb] in H; auto; injection H as <-; auto. }
  destruct H' as [->|H']; [constructor|]. clear H. rename H' into H. rewrite Env in H.
  assert (En : naive_tests None src trgt = ([], 0, zlen trgt)) by (unfold naive_tests; destruct (_ >? _); reflexivity). rewrite En in H.
  apply bind_ok in H as (tm & Htm & H). apply bind_ok in H as (sm & Hsm & H).
  destruct (build_rels m c src trgt 0 tm sm ltac:(lia) Htm Hsm) as [R1 R2]. pose proof (einv_start src trgt None _ _ _ tm sm En R2 R1) as I0.
  cbv zeta in H. apply bind_ok in H as (e & He & H). apply bind_ok in H as (u & _ & H). replace (zlen trgt <? zlen trgt) with false in H by lia. injection H as <-.
  apply Forall_rev. apply (eloop_no_src m src trgt _ (zlen trgt) Hb Ht Hs ltac:(lia) _ _ e I0) in He; [apply He|].
  split; [constructor|]. cbn [e_src]. destruct (ic_src c) as [sc|]; [|injection Hsm as <-; exact I]. apply bind_ok in Hsm as (s & Hsb & Hsm). injection Hsm as <-.
  destruct Hix as [X1 X2]. exact (src_build_empty m sc src trgt s Hs X1 X2 Hsb).
Qed.
Lemma pass1_no_src m : forall rest one r, Forall (fun c => match c with MSrc _ _ _ => False | _ => True end) (one :: rest) -> pass1 m one rest = Ok r ->
  Forall (fun c => match c with MSrc _ _ _ => False | _ => True end) r.
Proof.
  induction rest as [|two rest IH]; intros one r Hf H; cbn [pass1] in H; [injection H as <-; exact Hf|].
  apply Forall_cons_iff in Hf as [H1 Hf]. apply Forall_cons_iff in Hf as [H2 Hf].
  apply bind_ok in H as (u & _ & H). destruct (_ <=? c_pos two).
  { apply bind_ok in H as (r' & Hr & H). injection H as <-. constructor; [exact H1|]. apply (IH two r'); [now constructor|exact Hr]. }
  destruct (match rest with three :: _ => _ | [] => false end); [apply (IH one r); [now constructor|exact H]|].
  apply bind_ok in H as (sp & _ & H). destruct (_ || _); [destruct (_ <? _); [apply (IH two r)|apply (IH one r)]; (now constructor) || exact H|].
  apply bind_ok in H as (u1 & _ & H). apply bind_ok in H as (one' & E1 & H). apply bind_ok in H as (two' & E2 & H). apply bind_ok in H as (u2 & _ & H).
  apply bind_ok in H as (r' & Hr & H). injection H as <-. unfold set_len in E1. apply bind_ok in E1 as (u3 & _ & E1). injection E1 as <-.
  unfold set_o_pos in E2. apply bind_ok in E2 as (u4 & _ & E2). apply bind_ok in E2 as (n & _ & E2). injection E2 as <-.
  constructor; [destruct one; auto|]. eapply IH; [|exact Hr]. constructor; [destruct two; auto|exact Hf].
Qed.
Lemma translate_no_src m src trgt cs ops : Forall is_byte trgt -> zlen trgt < 2 ^ 64 -> zlen src < 2 ^ 64 -> Forall (cand_sound src trgt) cs -> cands_ordered cs ->
  Forall (fun c => match c with MSrc _ _ _ => False | _ => True end) cs -> translate_inner_ops m trgt cs = Ok ops -> existsb is_dict_copy ops = false.
Proof.
  intros Hb Hl Hls Hs Ho Hn H. unfold translate_inner_ops in H. apply bind_ok in H as (r & Hr & H).
  assert (G : Forall (cand_sound src trgt) r /\ disjoint 0 r /\ Forall (fun c => match c with MSrc _ _ _ => False | _ => True end) r).
  { destruct cs as [|one rest]; [injection Hr as <-; repeat constructor|].
    assert (Hn' := pass1_no_src m rest one r Hn Hr). apply Forall_cons_iff in Hs as [H1 H2]. destruct (pass1_ok m src trgt Hl rest one H1 H2 Ho) as (r' & A & B & C).
    rewrite A in Hr. injection Hr as ->. split; [exact B|]. split; [|exact Hn']. eapply disjoint_weaken; [|exact C]. apply H1. }
  destruct G as (G1 & G2 & G3). destruct (pass2_ok src trgt Hb Hl Hls r 0 G1 G2 ltac:(pose proof (zlen_nonneg trgt); lia)) as (ops' & A & _ & C).
  rewrite A in H. injection H as ->. apply C. clear - G3. induction G3 as [|c r Hc _ IH]; [reflexivity|]. cbn [existsb]. rewrite IH. destruct c; [contradiction|reflexivity|reflexivity].
Qed.

(** ** An unchanged file *)
Lemma encode_inner_same m c src sc : Forall is_byte src -> zlen src < 2 ^ 62 -> ic_src c = Some sc ->
  0 <= sc_step sc -> legal_src m sc -> (forall tc, ic_trgt c = Some tc -> legal_trgt tc) ->
  indexable (Z.max (sc_step sc) 1) (zlen src) -> 10 <= zlen src -> first4_differ src ->
  encode_inner m c src src = Ok [MSrc 0 (zlen src) 0].
Proof.
  intros Hb Hl Esc Hst Hls Hlt Hix H10 Hd. rewrite encode_inner_unfold by (try (left; rewrite Esc; discriminate); lia).
  assert (En : naive_tests (ic_naive c) src src = ([], 0, zlen src)) by (unfold naive_tests; replace (zlen src >? zlen src) with false by lia; reflexivity).
  rewrite En, Esc.
  assert (A : exists tm, match ic_trgt c with None => Ok None | Some tc => do t <- trgt_build m tc src 0; Ok (Some t) end = Ok tm /\
     tm_rel src 0 true tm /\ match tm with None => True | Some t => tm_tot 0 t end).
  { destruct (ic_trgt c) as [tc|]; [|eexists; split; [reflexivity|split; exact I]].
    destruct (trgt_build_total m tc src (Hlt tc eq_refl) Hl) as (t & E & Htm). rewrite E. cbn [bind]. eexists. split; [reflexivity|].
    split; [apply (trgt_build_rel m tc); [lia|exact E]|exact Htm]. }
  destruct A as (tm & -> & Rtm & Ttm). cbn [bind].
  destruct (src_build_total m sc src src 0 Hls ltac:(lia) ltac:(lia) ltac:(intros _; lia)) as (s & Es & Hsm). rewrite Es. cbn [bind]. cbv zeta.
  destruct (src_build_first m sc src src s ltac:(lia) Hst Hix H10 Es) as (T1 & T2 & T3 & T4 & T5 & T6).
  pose proof (src_build_rel m sc src src 0 s ltac:(lia) Es) as Rs.
  pose proof (einv_start src src (ic_naive c) [] 0 (zlen src) tm (Some s) En Rs Rtm) as I0.
  set (lazy := match ic_lazy c with Some n => n | None => 90 end) in *.
  assert (S1 : exists e1, start_new_match m src src (mkE [] 0 4 0 0 StartNewMatch (Some s) tm) = Ok e1 /\ tinv src src (zlen src) e1).
  { unfold start_new_match. cbn [e_cur e_byte e_src e_trgt e_ops opt_map].
    destruct (initial_run_total src 4 0 0 0 ltac:(lia) ltac:(lia)) as ([run byte] & ->). cbn [bind].
    unfold src_seek. replace (sm_next s <=? 0) with false by lia. cbn [bind]. rewrite T2, T4.
    replace (0 <? zlen src - 9) with true by lia. replace (0 + 9 >? 0) with true by reflexivity. change (Z.to_nat (0 - 0)) with O. cbn [roll_large bind].
    assert (T : exists tm', opt_map (fun t => trgt_seek t src 0) tm = Ok tm' /\ match tm' with None => True | Some t => tm_tot 0 t end).
    { destruct tm as [t|]; cbn [opt_map]; [|eexists; split; [reflexivity|exact I]].
      destruct (trgt_seek_total t src 0 Ttm Rtm ltac:(lia) ltac:(lia)) as (t' & -> & H'). cbn [bind]. eexists. split; [reflexivity|exact H']. }
    destruct T as (tm' & -> & Htm'). cbn [bind]. eexists. split; [reflexivity|].
    constructor; cbn [e_src e_trgt e_st e_cur e_ops]; [|exact Htm'|exact I]. split; [|discriminate]. apply sm_tot_fwd; [exact Hsm|]. rewrite T3. apply large_range. }
  destruct S1 as (e1 & H1 & Ti1).
  assert (I1 : einv src src (zlen src) e1).
  { apply (start_new_match_inv m src src (zlen src) _ e1 Hb) in H1; auto; try lia. cbn [e_cur]. lia. }
  assert (F1 : e_st e1 = TryMatch /\ e_cur e1 = 0).
  { unfold start_new_match in H1. apply bind_ok in H1 as ([a b] & _ & H1). apply bind_ok in H1 as (x & _ & H1).
    apply bind_ok in H1 as (y & _ & H1). injection H1 as <-. split; reflexivity. }
  destruct F1 as [St1 C1].
  destruct (try_total m src src (zlen src) e1 ltac:(lia) ltac:(lia) ltac:(lia) ltac:(lia) St1 I1 Ti1) as (e2 & H2 & _).
  assert (I2 : einv src src (zlen src) e2) by (apply (try_match_inv m src src (zlen src) e1 e2); auto; lia).
  destruct (first_match m src src s tm (zlen src) e1 e2) as (_ & _ & C2 & L' & Eo & St2 & HLL); auto; try lia.
  assert (EL : L' = zlen src).
  { destruct (iv_ops _ _ _ _ I2) as [Hf _]. rewrite Eo in Hf. apply Forall_cons_iff in Hf as [(_ & _ & Hf & _) _]. unfold c_end in Hf. cbn in Hf. lia. }
  subst L'.
  replace (4 * length src + 4)%nat with (S (S (S (4 * length src + 1))))%nat by lia. remember (4 * length src + 1)%nat as fuel eqn:Ef. clear Ef.
  cbn [eloop]. cbn [e_cur]. replace (0 + 4 >=? zlen src) with false by lia. unfold estep at 1. cbn [e_st]. rewrite H1. cbn [bind].
  rewrite C1. replace (0 + 4 >=? zlen src) with false by lia. unfold estep at 1. rewrite St1, H2. cbn [bind].
  rewrite C2. replace (0 + 4 >=? zlen src) with false by lia. unfold estep. rewrite St2. unfold found_match. rewrite usub_ok by lia. cbn [bind].
  rewrite C2. replace (0 + zlen src <? zlen src - 1) with false by lia. rewrite andb_false_r. cbn [bind].
  assert (G : forall k e, e_cur e = 0 + zlen src -> eloop k m src src lazy (zlen src) e = Ok e).
  { intros k e Ee. destruct k; cbn [eloop]; rewrite Ee; replace (0 + zlen src + 4 >=? zlen src) with true by lia; reflexivity. }
  rewrite G by reflexivity. cbn [bind e_cur e_ops]. unfold assert_. replace (0 + zlen src <=? zlen src) with true by lia. cbn [bind].
  replace (zlen src <? zlen src) with false by lia. rewrite Eo. reflexivity.
Qed.
Lemma copy_chunks_count s : forall fuel addr rem ops, 0 <= rem -> copy_chunks fuel s addr rem = Ok ops ->
  zlen ops = (rem + 65534) / 65535 /\ Forall (fun x => match x with Copy s' _ _ => s' = s | _ => False end) ops.
Proof.
  induction fuel as [|k IH]; intros addr rem ops Hr H; cbn [copy_chunks] in H; destruct (rem <=? 0) eqn:E; try discriminate.
  - injection H as <-. assert (rem = 0) by lia. subst. split; [reflexivity|constructor].
  - injection H as <-. assert (rem = 0) by lia. subst. split; [reflexivity|constructor].
  - apply bind_ok in H as (r & Hr' & H). injection H as <-. unfold MAX_INST_SIZE in *. apply IH in Hr' as [G1 G2]; [|lia]. split; [|constructor; [reflexivity|exact G2]].
    rewrite zlen_cons, G1. destruct (Z.le_gt_cases 65535 rem).
    + rewrite Z.min_l by lia. replace (rem + 65534) with (rem - 65535 + 65534 + 1 * 65535) by lia. rewrite Z.div_add by lia. lia.
    + rewrite Z.min_r by lia. replace (rem - rem + 65534) with 65534 by lia. rewrite (Z.div_small 65534) by lia.
      replace (rem + 65534) with (rem - 1 + 1 * 65535) by lia. rewrite Z.div_add by lia. rewrite Z.div_small by lia. lia.
Qed.
Lemma translate_single m trgt n ops : 0 < n -> zlen trgt = n -> translate_inner_ops m trgt [MSrc 0 n 0] = Ok ops ->
  zlen ops = (n + 65534) / 65535 /\ Forall (fun x => match x with Copy s' _ _ => s' = Dict | _ => False end) ops.
Proof.
  intros Hn Hl H. unfold translate_inner_ops in H. cbn [pass1 bind pass2 c_len c_pos] in H. replace (n <=? 0) with false in H by lia.
  replace (0 >? 0) with false in H by reflexivity. cbn [bind] in H. change (Z.max 0 0) with 0 in H. unfold assert_ at 1 in H. change (0 =? 0) with true in H. cbn [bind] in H.
  apply bind_ok in H as (these & Ht & H). replace (zlen trgt >? 0 + n) with false in H by lia. cbn [bind] in H. injection H as <-. rewrite app_nil_r. cbn [app].
  unfold make_copy_ops in Ht. apply copy_chunks_count in Ht; [exact Ht|lia].
Qed.
