(** Which stretches the candidates of the encoder cover: runs. *)
From Verif Require Import Base Spec SpecEnc SpecLit MCommon MHasher MHashmap MOpMaker MTrgtMatcher MSrcMatcher MEncInner PBase PDecoder POpMaker PEncInner PTotal TOpMaker PFind PLoss.
Ltac Zify.zify_post_hook ::= idtac.
Arguments Z.add : simpl never.
Arguments Z.sub : simpl never.
Arguments Z.mul : simpl never.
Arguments Z.pow : simpl never.

(** What a round in state TryMatch does. *)
Lemma try_match_cases m src trgt mx e e' : Forall is_byte trgt -> zlen trgt < 2 ^ 64 -> zlen src < 2 ^ 64 -> mx <= zlen trgt -> e_cur e + 4 < mx ->
  e_st e = TryMatch -> einv src trgt mx e -> try_match m src trgt mx e = Ok e' ->
  e_cur e' = e_cur e /\ e_byte e' = e_byte e /\ e_src e' = e_src e /\ e_trgt e' = e_trgt e /\
  e_run e' = (if e_run e =? 4 then run_count (e_byte e) (drop (e_cur e) trgt) else e_run e) /\
  ((e_run e = 4 /\ e_min e <= e_run e' /\ e_ops e' = MRun (e_byte e) (e_run e') (e_cur e) :: e_ops e /\ e_st e' = FoundMatch (e_run e')) \/
   ((e_run e <> 4 \/ e_run e' < e_min e) /\
    ((exists s sp pre post ops, e_src e = Some s /\ e_cur e + 9 <= mx /\ find_best_src_match m s src trgt = Ok (Some (sp, pre, post)) /\ e_min e <= post /\ 0 <= pre <= e_cur e /\
        (if pre >? 0 then clear_ops (e_ops e) (e_cur e - pre) else Ok (e_ops e)) = Ok ops /\ e_ops e' = MSrc (sp - pre) (pre + post) (e_cur e - pre) :: ops /\ e_st e' = FoundMatch post) \/
     ((forall s, e_src e = Some s -> e_cur e + 9 <= mx -> exists r, find_best_src_match m s src trgt = Ok r /\ match r with Some (_, _, post) => post < e_min e | None => True end) /\
      ((exists start len, e_ops e' = MTrgt start len (e_cur e) :: e_ops e /\ e_min e <= len /\ e_st e' = FoundMatch len) \/
       (e_ops e' = e_ops e /\ e_st e' = MoveForwardOneByte /\ e_min e' = (if e_min e >? 4 then e_min e - 1 else e_min e))))))).
Proof.
  intros Hb Hlt Hls Hmx Hc Est I H. destruct I as [I1 I2 I3 I4 I5 I6 I7 I8 I9]. rewrite Est in *. cbn [is_start] in *. destruct I9 as [I9 I10].
  unfold try_match in H. apply bind_ok in H as (e1 & H1 & H).
  destruct (try_run_ok m trgt e e1 ltac:(lia) I10 H1) as (E1 & R1 & R4 & R5). clear H1.
  assert (Er : e_run e1 = if e_run e =? 4 then run_count (e_byte e) (drop (e_cur e) trgt) else e_run e).
  { destruct (e_run e =? 4) eqn:E; [apply R4; lia|]. rewrite R5 by lia. reflexivity. }
  assert (Q : e_ops e1 = e_ops e /\ e_cur e1 = e_cur e /\ e_min e1 = e_min e /\ e_byte e1 = e_byte e /\ e_src e1 = e_src e /\ e_trgt e1 = e_trgt e) by (rewrite E1; cbn; auto 10).
  destruct Q as (Q1 & Q2 & Q3 & Q4 & Q5 & Q6). clear E1 R5.
  apply bind_ok in H as (r & Hr & H). unfold take_run in Hr. rewrite Q1, Q2, Q3, Q4 in Hr.
  destruct ((e_run e =? 4) && (e_run e1 >=? e_min e)) eqn:Etr.
  { apply bind_ok in Hr as (w & _ & Hr). apply bind_ok in Hr as (u & _ & Hr). injection Hr as <-. injection H as <-. cbn [found e_cur e_byte e_src e_trgt e_run e_ops e_st].
    apply andb_true_iff in Etr as [T1 T2]. repeat (split; [assumption|]). left. split; [lia|]. split; [lia|]. split; reflexivity. }
  injection Hr as <-. assert (N : e_run e <> 4 \/ e_run e1 < e_min e) by (apply andb_false_iff in Etr; lia).
  apply bind_ok in H as (r & Hr & H). unfold try_src in Hr. rewrite Q1, Q2, Q3, Q5 in Hr.
  destruct (e_src e) as [s|] eqn:Es.
  2: { injection Hr as <-. apply bind_ok in H as (r & Hr & H). unfold try_trgt in Hr. rewrite Q1, Q2, Q3, Q6 in Hr.
    assert (A : (exists start len, r = Some (found e1 (MTrgt start len (e_cur e) :: e_ops e) len) /\ e_min e <= len) \/ r = None).
    { destruct (e_trgt e) as [t|]; [|right; congruence]. destruct (_ <=? mx); [|right; congruence]. apply bind_ok in Hr as (u & _ & Hr). apply bind_ok in Hr as (fm & _ & Hr).
      destruct fm as [[start len]|]; [|right; congruence]. destruct (len >=? e_min e) eqn:El; [|right; congruence]. apply bind_ok in Hr as (u1 & _ & Hr). apply bind_ok in Hr as (u2 & _ & Hr).
      injection Hr as <-. left. exists start, len. split; [reflexivity|lia]. }
    destruct A as [(start & len & -> & Hl) | ->]; injection H as <-; cbn [found e_cur e_byte e_src e_trgt e_run e_ops e_st e_min]; rewrite ?Q1, ?Q2, ?Q3, ?Q4, ?Q5, ?Q6;
      repeat (split; [assumption || reflexivity|]); right; (split; [exact N|]); right; (split; [discriminate|]).
    - left. exists start, len. auto.
    - right. auto. }
  assert (G : forall r1, (exists r, r1 = r /\ (e_cur e + 9 <= mx -> find_best_src_match m s src trgt = Ok r /\ match r with Some (_, _, post) => post < e_min e | None => True end)) ->
    (match None with Some e'0 => Ok e'0 | None => do r <- try_trgt m trgt mx e1; match r with Some e'0 => Ok e'0 | None =>
        let mm := if e_min e1 >? 4 then e_min e1 - 1 else e_min e1 in Ok (mkE (e_ops e1) (e_cur e1) mm (e_run e1) (e_byte e1) MoveForwardOneByte (e_src e1) (e_trgt e1)) end end) = Ok e' ->
    e_cur e' = e_cur e /\ e_byte e' = e_byte e /\ e_src e' = Some s /\ e_trgt e' = e_trgt e /\ e_run e' = e_run e1 /\
    (forall s0, Some s = Some s0 -> e_cur e + 9 <= mx -> exists r, find_best_src_match m s0 src trgt = Ok r /\ match r with Some (_, _, post) => post < e_min e | None => True end) /\
      ((exists start len, e_ops e' = MTrgt start len (e_cur e) :: e_ops e /\ e_min e <= len /\ e_st e' = FoundMatch len) \/
       (e_ops e' = e_ops e /\ e_st e' = MoveForwardOneByte /\ e_min e' = (if e_min e >? 4 then e_min e - 1 else e_min e)))).
  { clear H Hr r. intros r1 (r2 & -> & Hr2) H. apply bind_ok in H as (r & Hr & H). unfold try_trgt in Hr. rewrite Q1, Q2, Q3, Q6 in Hr.
    assert (A : (exists start len, r = Some (found e1 (MTrgt start len (e_cur e) :: e_ops e) len) /\ e_min e <= len) \/ r = None).
    { destruct (e_trgt e) as [t|]; [|right; congruence]. destruct (_ <=? mx); [|right; congruence]. apply bind_ok in Hr as (u & _ & Hr). apply bind_ok in Hr as (fm & _ & Hr).
      destruct fm as [[start len]|]; [|right; congruence]. destruct (len >=? e_min e) eqn:El; [|right; congruence]. apply bind_ok in Hr as (u1 & _ & Hr). apply bind_ok in Hr as (u2 & _ & Hr).
      injection Hr as <-. left. exists start, len. split; [reflexivity|lia]. }
    assert (F : forall s0, Some s = Some s0 -> e_cur e + 9 <= mx -> exists r, find_best_src_match m s0 src trgt = Ok r /\ match r with Some (_, _, post) => post < e_min e | None => True end).
    { intros s0 E0 E9. injection E0 as <-. exists r2. auto. }
    destruct A as [(start & len & -> & Hl) | ->]; injection H as <-; cbn [found e_cur e_byte e_src e_trgt e_run e_ops e_st e_min]; rewrite ?Q1, ?Q2, ?Q3, ?Q4, ?Q5, ?Q6;
      repeat (split; [assumption || reflexivity|]).
    - left. exists start, len. auto.
    - right. auto. }
  assert (G' : forall r1, (exists r, r1 = r /\ (e_cur e + 9 <= mx -> find_best_src_match m s src trgt = Ok r /\ match r with Some (_, _, post) => post < e_min e | None => True end)) -> r = None ->
    e_cur e' = e_cur e /\ e_byte e' = e_byte e /\ e_src e' = Some s /\ e_trgt e' = e_trgt e /\ e_run e' = (if e_run e =? 4 then run_count (e_byte e) (drop (e_cur e) trgt) else e_run e) /\
    ((e_run e = 4 /\ e_min e <= e_run e' /\ e_ops e' = MRun (e_byte e) (e_run e') (e_cur e) :: e_ops e /\ e_st e' = FoundMatch (e_run e')) \/
     ((e_run e <> 4 \/ e_run e' < e_min e) /\
      ((exists s0 sp pre post ops, Some s = Some s0 /\ e_cur e + 9 <= mx /\ find_best_src_match m s0 src trgt = Ok (Some (sp, pre, post)) /\ e_min e <= post /\ 0 <= pre <= e_cur e /\
        (if pre >? 0 then clear_ops (e_ops e) (e_cur e - pre) else Ok (e_ops e)) = Ok ops /\ e_ops e' = MSrc (sp - pre) (pre + post) (e_cur e - pre) :: ops /\ e_st e' = FoundMatch post) \/
     ((forall s0, Some s = Some s0 -> e_cur e + 9 <= mx -> exists r, find_best_src_match m s0 src trgt = Ok r /\ match r with Some (_, _, post) => post < e_min e | None => True end) /\
      ((exists start len, e_ops e' = MTrgt start len (e_cur e) :: e_ops e /\ e_min e <= len /\ e_st e' = FoundMatch len) \/
       (e_ops e' = e_ops e /\ e_st e' = MoveForwardOneByte /\ e_min e' = (if e_min e >? 4 then e_min e - 1 else e_min e)))))))).
  { intros r1 HH ->. destruct (G r1 HH H) as (G1 & G2 & G3 & G4 & G5 & G6 & G7). repeat (split; [assumption|]). split; [congruence|]. right. split; [rewrite G5; exact N|]. right. split; [exact G6|exact G7]. }
  destruct (e_cur e + 9 <=? mx) eqn:E9; [|apply (G' None); [exists None; split; [reflexivity|lia]|congruence]].
  apply bind_ok in Hr as (u & _ & Hr). apply bind_ok in Hr as (fm & Hf & Hr). destruct fm as [[[sp pre] post]|]; [|apply (G' None); [exists None; auto|congruence]].
  destruct (post >=? e_min e) eqn:Em; [|apply (G' (Some (sp, pre, post))); [exists (Some (sp, pre, post)); split; [reflexivity|]; intros _; split; [exact Hf|lia]|congruence]].
  clear G G'. assert (Hf' := Hf).
  unfold find_best_src_match in Hf'. apply bind_ok in Hf' as ([p|] & _ & Hf'); [|discriminate].
  apply bind_ok in Hf' as ([[pre' post']|] & Hx & Hf'); [|discriminate]. injection Hf' as E2 E3 E4. subst pre' post.
  apply extend_src_sound in Hx; auto. destruct I7 as (J1 & J2 & J3). replace (sm_pos s) with (e_cur e) in * by lia. rewrite E2 in Hx.
  destruct Hx as (X1 & X2 & X3 & X4 & X5 & X6 & X7 & X8).
  rewrite usub_ok in Hr by lia. cbn [bind] in Hr. apply bind_ok in Hr as (ops & Ho & Hr). rewrite usub_ok in Hr by lia. cbn [bind] in Hr.
  apply bind_ok in Hr as (u1 & _ & Hr). apply bind_ok in Hr as (u2 & _ & Hr). injection Hr as <-. injection H as <-.
  cbn [found e_cur e_byte e_src e_trgt e_run e_ops e_st e_min]. repeat (split; [assumption|]). right. split; [exact N|]. left.
  exists s, sp, pre, (post' + 9), ops. split; [reflexivity|]. split; [lia|]. split; [exact Hf|]. split; [lia|]. split; [lia|]. split; [exact Ho|]. split; reflexivity.
Qed.

(** ** A stretch of the target lies in one candidate; this is kept *)
Definition covers (ops : list cand) (x y : Z) : Prop := exists d, In d ops /\ c_pos d <= x /\ y <= c_end d.
Lemma covers_cons c ops x y : covers ops x y -> covers (c :: ops) x y.
Proof. intros (d & H & A & B). exists d. split; [now right|]. auto. Qed.
Lemma covers_head c ops x y : c_pos c <= x -> y <= c_end c -> covers (c :: ops) x y.
Proof. intros A B. exists c. split; [now left|]. auto. Qed.
Lemma clear_grow : forall ops start ops' c, clear_ops ops start = Ok ops' -> In c ops -> In c ops' \/ start <= c_pos c.
Proof.
  induction ops as [|d ops IH]; intros start ops' c H Hin; [contradiction|]. cbn [clear_ops] in H. destruct (c_pos d >=? start) eqn:E.
  - destruct Hin as [<- | Hin]; [right; lia|]. now apply (IH start).
  - injection H as <-. now left.
Qed.
Lemma last_end_max src trgt ops c : cands_ok src trgt ops -> In c ops -> c_end c <= last_end ops.
Proof.
  intros [_ Ho] Hin. destruct ops as [|d ops]; [contradiction|]. cbn [last_end]. fold (c_end d). destruct Hin as [<- | Hin]; [lia|]. now apply (rordered_head_max ops d Ho).
Qed.
Lemma estep_grow m src trgt lazy mx e e' x y : Forall is_byte trgt -> zlen trgt < 2 ^ 64 -> zlen src < 2 ^ 64 -> mx <= zlen trgt -> e_cur e + 4 < mx ->
  einv src trgt mx e -> estep m src trgt lazy mx e = Ok e' -> covers (e_ops e) x y -> covers (e_ops e') x y.
Proof.
  intros Hb Hlt Hls Hmx Hc I H Hco. unfold estep in H. destruct (e_st e) as [| |len|] eqn:Est.
  - unfold start_new_match in H. apply bind_ok in H as ([r b] & _ & H). apply bind_ok in H as (s & _ & H). apply bind_ok in H as (t & _ & H). injection H as <-. exact Hco.
  - pose proof (try_match_cases m src trgt mx e e' Hb Hlt Hls Hmx Hc Est I H) as (_ & _ & _ & _ & _ & [(_ & _ & -> & _)|(_ & [(s & sp & pre & post & ops & _ & _ & _ & Hm & Hpre & Ho & -> & _)|(_ & [(start & len & -> & _)|(-> & _)])])]); auto using covers_cons.
    destruct Hco as (d & Hin & A & B). destruct I as [I1 I2 I3 I4 I5 I6 I7 I8 I9]. rewrite Est in I9. destruct I9 as [I9 _]. pose proof (last_end_max src trgt _ d I4 Hin) as Hd.
    assert (K : In d ops \/ e_cur e - pre <= c_pos d) by (destruct (pre >? 0); [eapply clear_grow; eassumption|injection Ho as <-; now left]).
    destruct K as [K|K]; [apply covers_cons; exists d; auto|]. apply covers_head; unfold c_end; cbn [c_pos c_len]; lia.
  - unfold found_match in H. apply bind_ok in H as (l & _ & H). destruct (_ && _ && _); injection H as <-; exact Hco.
  - unfold move_forward in H. apply bind_ok in H as (r & _ & H). apply bind_ok in H as (s & _ & H). apply bind_ok in H as (t & _ & H). injection H as <-. exact Hco.
Qed.

(** The length a match must have is at most what it takes to reach further than the last one. *)
Definition minv (e : est) : Prop :=
  match e_st e with
  | TryMatch => 4 < e_min e -> e_cur e + e_min e <= last_end (e_ops e) + 1
  | MoveForwardOneByte => 4 < e_min e -> e_cur e + e_min e <= last_end (e_ops e)
  | _ => True
  end.
Lemma estep_minv m src trgt lazy mx e e' : Forall is_byte trgt -> zlen trgt < 2 ^ 64 -> zlen src < 2 ^ 64 -> mx <= zlen trgt -> e_cur e + 4 < mx ->
  einv src trgt mx e -> estep m src trgt lazy mx e = Ok e' -> minv e -> minv e'.
Proof.
  intros Hb Hlt Hls Hmx Hc I H M. unfold estep in H. unfold minv in M. destruct (e_st e) as [| |len|] eqn:Est.
  - unfold start_new_match in H. apply bind_ok in H as ([r b] & _ & H). apply bind_ok in H as (s & _ & H). apply bind_ok in H as (t & _ & H). injection H as <-.
    unfold minv. cbn [e_st e_min e_cur e_ops]. destruct (last_end (e_ops e) >? e_cur e) eqn:E; lia.
  - pose proof (try_match_cases m src trgt mx e e' Hb Hlt Hls Hmx Hc Est I H) as (Ec & _ & _ & _ & _ & [(_ & _ & _ & Es)|(_ & [(s & sp & pre & post & ops & _ & _ & _ & _ & _ & _ & _ & Es)|(_ & [(start & len & _ & _ & Es)|(Eo & Es & Em)])])]);
      unfold minv; rewrite Es; try exact Logic.I. rewrite Eo, Em, Ec. destruct (e_min e >? 4) eqn:E; lia.
  - destruct I as [I1 I2 I3 I4 I5 I6 I7 I8 I9]. rewrite Est in I9. unfold found_match in H. apply bind_ok in H as (l & _ & H). destruct (_ && _ && _); injection H as <-; unfold minv; cbn [e_st e_min e_cur e_ops]; [lia|exact Logic.I].
  - unfold move_forward in H. apply bind_ok in H as (r & _ & H). apply bind_ok in H as (s & _ & H). apply bind_ok in H as (t & _ & H). injection H as <-. unfold minv. cbn [e_st e_min e_cur e_ops]. lia.
Qed.

(** ** Runs *)
Lemma initial_run_exact trgt cur last run byte : initial_run 4 trgt cur 0 last = Ok (run, byte) ->
  idx trgt (cur + 3) = Ok byte /\
  forall a b, cur <= a <= cur + 3 -> (forall i, a <= i <= cur + 3 -> idx trgt i = Ok b) -> (cur < a -> idx trgt (a - 1) <> Ok b) -> byte = b /\ run = cur + 4 - a.
Proof.
  intro H. cbn [initial_run] in H. apply bind_ok in H as (c0 & H0 & H).
  assert (K : exists b0, (do c <- idx trgt (cur + 1); if b0 =? c then (do c1 <- idx trgt (cur + 1 + 1); if b0 =? c1 then (do c2 <- idx trgt (cur + 1 + 1 + 1); if b0 =? c2 then Ok (0 + 1 + 1 + 1 + 1, b0) else Ok (1, c2)) else (do c2 <- idx trgt (cur + 1 + 1 + 1); if c1 =? c2 then Ok (1 + 1, c1) else Ok (1, c2)))
     else (do c1 <- idx trgt (cur + 1 + 1); if c =? c1 then (do c2 <- idx trgt (cur + 1 + 1 + 1); if c =? c2 then Ok (1 + 1 + 1, c) else Ok (1, c2)) else (do c2 <- idx trgt (cur + 1 + 1 + 1); if c1 =? c2 then Ok (1 + 1, c1) else Ok (1, c2)))) = Ok (run, byte) /\ b0 = c0).
  { destruct (last =? c0) eqn:E; [exists last; split; [exact H|lia]|exists c0; split; [exact H|reflexivity]]. }
  clear H. destruct K as (b0 & H & ->). apply bind_ok in H as (c1 & H1 & H).
  assert (K : exists c2 c3, idx trgt (cur + 2) = Ok c2 /\ idx trgt (cur + 3) = Ok c3 /\
     (run, byte) = (if c2 =? c3 then if c1 =? c2 then if c0 =? c1 then 4 else 3 else 2 else 1, c3)).
  { replace (cur + 1 + 1) with (cur + 2) in H by lia. replace (cur + 2 + 1) with (cur + 3) in H by lia.
    destruct (c0 =? c1) eqn:E01; apply bind_ok in H as (c2 & H2 & H); exists c2.
    - apply Z.eqb_eq in E01. subst c1. destruct (c0 =? c2) eqn:E12; apply bind_ok in H as (c3 & H3 & H); exists c3; (split; [exact H2|]); (split; [exact H3|]).
      + apply Z.eqb_eq in E12. subst c2. destruct (c0 =? c3) eqn:E23; injection H as <- <-; [|reflexivity]. apply Z.eqb_eq in E23. subst c3. reflexivity.
      + destruct (c2 =? c3) eqn:E23; injection H as <- <-; [|reflexivity]. apply Z.eqb_eq in E23. subst c3. reflexivity.
    - destruct (c1 =? c2) eqn:E12; apply bind_ok in H as (c3 & H3 & H); exists c3; (split; [exact H2|]); (split; [exact H3|]).
      + apply Z.eqb_eq in E12. subst c2. destruct (c1 =? c3) eqn:E23; injection H as <- <-; [|reflexivity]. apply Z.eqb_eq in E23. subst c3. reflexivity.
      + destruct (c2 =? c3) eqn:E23; injection H as <- <-; [|reflexivity]. apply Z.eqb_eq in E23. subst c3. reflexivity. }
  destruct K as (c2 & c3 & H2 & H3 & K). injection K as -> ->. split; [exact H3|]. intros a b Ha Hi Hd.
  assert (B3 : c3 = b) by (pose proof (Hi (cur + 3) ltac:(lia)) as Q; rewrite H3 in Q; now injection Q). split; [exact B3|].
  assert (V : forall k c, 0 <= k <= 3 -> idx trgt (cur + k) = Ok c -> (a <= cur + k -> c = b) /\ (a = cur + k + 1 -> c <> b)).
  { intros k c Hk E. split; [intro L; pose proof (Hi (cur + k) ltac:(lia)) as Q; rewrite E in Q; now injection Q|]. intros L ->. apply (Hd ltac:(lia)). replace (a - 1) with (cur + k) by lia. exact E. }
  destruct (V 2 c2 ltac:(lia) H2) as [V2 V2']. destruct (V 1 c1 ltac:(lia) H1) as [V1 V1']. rewrite <- (Z.add_0_r cur) in H0. destruct (V 0 c0 ltac:(lia) H0) as [V0 V0'].
  assert (Ca : a = cur \/ a = cur + 1 \/ a = cur + 2 \/ a = cur + 3) by lia. destruct Ca as [Ca|[Ca|[Ca|Ca]]];
    destruct (c2 =? c3) eqn:E23; try lia; destruct (c1 =? c2) eqn:E12; try lia; destruct (c0 =? c1) eqn:E01; lia.
Qed.

Lemma idx_rep {A} (b : A) n i : 0 <= i < n -> idx (rep b n) i = Ok b.
Proof. intro H. unfold idx, rep. replace (i <? 0) with false by lia. rewrite nth_error_repeat by lia. reflexivity. Qed.
Record stretch (trgt : list Z) (a bb b0 : Z) : Prop := mkStretch {
  s_a : 0 <= a; s_bb : bb <= zlen trgt; s_4 : 4 <= bb - a;
  s_in : forall i, a <= i < bb -> idx trgt i = Ok b0;
  s_left : 0 < a -> idx trgt (a - 1) <> Ok b0;
  s_right : bb < zlen trgt -> idx trgt bb <> Ok b0
}.
Lemma stretch_count trgt a bb b0 i : stretch trgt a bb b0 -> a <= i <= bb -> run_count b0 (drop i trgt) = bb - i.
Proof.
  intros [S1 S2 S3 S4 S5 S6] Hi. pose proof (run_count_bound b0 (drop i trgt)) as B. pose proof (run_count_max b0 (drop i trgt)) as M. pose proof (run_count_take b0 (drop i trgt)) as T.
  set (k := run_count b0 (drop i trgt)) in *. rewrite zlen_drop in * by lia.
  assert (I : forall j, 0 <= j < zlen trgt - i -> idx (drop i trgt) j = idx trgt (i + j)) by (intros j Hj; rewrite drop_is_sub by lia; apply idx_sub; lia).
  destruct (Z.lt_trichotomy k (bb - i)) as [L|[L|L]]; [|exact L|].
  - exfalso. destruct M as [M|M]; [lia|]. apply M. rewrite I by lia. apply S4. lia.
  - exfalso. apply (S6 ltac:(lia)). assert (E : idx (take k (drop i trgt)) (bb - i) = Ok b0) by (rewrite T; apply idx_rep; lia).
    rewrite take_is_sub, idx_sub, Z.add_0_l, I in E by (rewrite ?zlen_drop; lia). replace (i + (bb - i)) with bb in E by lia. exact E.
Qed.

Definition rdone (a bb : Z) (ops : list cand) : Prop := exists j, a <= j <= bb /\ (j = a \/ covers ops a j) /\ (covers ops j bb \/ bb - j <= 3).
Definition look (trgt : list Z) (a b0 : Z) (e : est) : Prop := idx trgt (e_cur e + 3) = Ok (e_byte e) /\ (a <= e_cur e + 3 -> e_byte e = b0 /\ e_run e = e_cur e + 4 - a).
Definition rinv (trgt : list Z) (a bb b0 : Z) (e : est) : Prop :=
  rdone a bb (e_ops e) \/
  (e_cur e <= a /\ match e_st e with StartNewMatch => True | TryMatch => look trgt a b0 e | _ => e_cur e < a /\ look trgt a b0 e end) \/
  (a < e_cur e /\ e_cur e + 4 <= bb /\ covers (e_ops e) a (e_cur e) /\ match e_st e with StartNewMatch => True | TryMatch => e_run e = 4 /\ e_byte e = b0 | _ => False end).
(** Arriving at position [p] with everything from [a] up to there covered. *)
Lemma rinv_jump a bb ops p : 4 <= bb - a -> a < p -> covers ops a p -> rdone a bb ops \/ (a < p /\ p + 4 <= bb /\ covers ops a p).
Proof.
  intros H4 Hp Hc. destruct (Z_le_dec bb p) as [L|L].
  - left. exists bb. split; [lia|]. split; [right|right; lia]. destruct Hc as (d & A & B & C). exists d. split; [exact A|]. lia.
  - destruct (Z_le_dec (p + 4) bb) as [L4|L4]; [right; auto|]. left. exists p. split; [lia|]. split; [now right|right; lia].
Qed.
Lemma estep_rinv m src trgt lazy mx a bb b0 e e' : Forall is_byte trgt -> zlen trgt < 2 ^ 64 -> zlen src < 2 ^ 64 -> mx <= zlen trgt -> e_cur e + 4 < mx -> stretch trgt a bb b0 ->
  einv src trgt mx e -> minv e -> estep m src trgt lazy mx e = Ok e' -> rinv trgt a bb b0 e -> rinv trgt a bb b0 e'.
Proof.
  intros Hb Hlt Hls Hmx Hc S I M H R.
  assert (Gr : forall x y, covers (e_ops e) x y -> covers (e_ops e') x y) by (intros x y; exact (estep_grow m src trgt lazy mx e e' x y Hb Hlt Hls Hmx Hc I H)).
  assert (Gd : rdone a bb (e_ops e) -> rdone a bb (e_ops e')).
  { intros (j & A & B & C). exists j. split; [exact A|]. split; [destruct B as [B|B]; auto|destruct C as [C|C]; auto]. }
  destruct R as [R|R]; [left; now apply Gd|]. unfold estep in H. destruct (e_st e) as [| |len|] eqn:Est.
  - (* StartNewMatch *)
    unfold start_new_match in H. apply bind_ok in H as ([r b] & Hr & H). apply bind_ok in H as (s & _ & H). apply bind_ok in H as (t & _ & H). injection H as <-.
    apply initial_run_exact in Hr as [R1 R2]. destruct R as [[R _]|(Ra & Rb & Rc & _)].
    + right. left. unfold look. cbn [e_cur e_st e_byte e_run]. split; [exact R|]. split; [exact R1|]. intro La.
      apply R2; [lia| |].
      * intros i Hi. apply (s_in _ _ _ _ S). pose proof (s_4 _ _ _ _ S). lia.
      * intro L. apply (s_left _ _ _ _ S). destruct I as [I1 _ _ _ _ _ _ _ _]. lia.
    + right. right. cbn [e_cur e_st e_byte e_run e_ops]. split; [exact Ra|]. split; [exact Rb|]. split; [exact Rc|].
      destruct (R2 (e_cur e) b0) as [-> ->]; [lia|intros i Hi; apply (s_in _ _ _ _ S); lia|lia|]. split; [lia|reflexivity].
  - (* TryMatch *)
    pose proof (try_match_cases m src trgt mx e e' Hb Hlt Hls Hmx Hc Est I H) as (Ec & Eb & _ & _ & Er & Cs).
    assert (Z0 : (a <= e_cur e /\ e_cur e + 4 <= bb /\ e_run e = 4 /\ e_byte e = b0 /\ (e_cur e = a \/ covers (e_ops e) a (e_cur e))) \/ (e_cur e < a /\ look trgt a b0 e)).
    { pose proof (s_4 _ _ _ _ S). destruct R as [[R1 R2]|(R1 & R2 & R3 & R4 & R5)].
      - destruct (Z.eq_dec (e_cur e) a) as [E|E]; [left|right; split; [lia|exact R2]]. destruct R2 as [_ R2]. destruct (R2 ltac:(lia)) as [-> ->]. repeat split; auto; lia.
      - left. repeat split; auto; lia. }
    clear R. destruct Z0 as [(Za & Zb & Zr & Zy & Zc)|[Za Zl]].
    + left. rewrite Zr, Zy in Er. cbn [Z.eqb Pos.eqb] in Er. rewrite (stretch_count trgt a bb b0 (e_cur e) S ltac:(lia)) in Er.
      assert (D : covers (e_ops e') (e_cur e) bb).
      { destruct Cs as [(_ & _ & -> & _)|([N|N] & _)]; [apply covers_head; unfold c_end; cbn [c_pos c_len]; lia|contradiction|]. apply Gr.
        unfold minv in M. rewrite Est in M. specialize (M ltac:(lia)). destruct I as [I1 I2 I3 I4 I5 _ _ _ _]. destruct (e_ops e) as [|h ops]; [cbn [last_end] in M; lia|].
        apply covers_head; [exact I5|]. cbn [last_end] in M. unfold c_end. lia. }
      exists (e_cur e). split; [lia|]. split; [|left; exact D]. destruct Zc as [Zc|Zc]; [now left|right; now apply Gr].
    + right. left. assert (L : look trgt a b0 e').
      { unfold look in *. rewrite Ec, Eb. destruct Zl as [Z1 Z2]. split; [exact Z1|]. intro La. destruct (Z2 La) as [Z3 Z4]. split; [exact Z3|]. rewrite Er. replace (e_run e =? 4) with false by lia. exact Z4. }
      rewrite Ec. split; [lia|]. destruct Cs as [(_ & _ & _ & ->)|(_ & [(s & sp & pre & post & ops & _ & _ & _ & _ & _ & _ & _ & ->)|(_ & [(start & len & _ & _ & ->)|(_ & -> & _)])])]; auto.
  - (* FoundMatch *)
    destruct R as [(R1 & R2 & R3)|(_ & _ & _ & [])]. assert (I' := I). destruct I' as [I1 I2 I3 I4 I5 I6 I7 I8 I9]. rewrite Est in I9. destruct I9 as (I9 & I10 & _).
    unfold found_match in H. apply bind_ok in H as (l & _ & H). destruct (_ && _ && _); injection H as <-; unfold rinv; cbn [e_st e_cur e_ops].
    + right. left. split; [lia|]. split; [lia|exact R3].
    + destruct (Z_le_dec (e_cur e + len) a) as [L|L]; [right; left; split; [lia|exact Logic.I]|].
      destruct (rinv_jump a bb (e_ops e) (e_cur e + len) (s_4 _ _ _ _ S) ltac:(lia)) as [K|(K1 & K2 & K3)]; [|now left|right; right; auto].
      destruct (e_ops e) as [|h ops]; [cbn [last_end] in I9; lia|]. cbn [last_end head_pos_le] in I9, I5. apply covers_head; unfold c_end; lia.
  - (* MoveForwardOneByte *)
    destruct R as [(R1 & R2 & R3)|(_ & _ & _ & [])]. unfold move_forward in H. apply bind_ok in H as (c & Hcx & H). apply bind_ok in H as (s & _ & H). apply bind_ok in H as (t & _ & H). injection H as <-.
    right. left. unfold look. cbn [e_st e_cur e_ops e_byte e_run]. split; [lia|]. replace (e_cur e + 1 + 3) with (e_cur e + 4) by lia. split; [exact Hcx|]. intro La. destruct R3 as [R3 R4].
    pose proof (s_4 _ _ _ _ S). assert (Ecb : c = b0) by (pose proof (s_in _ _ _ _ S (e_cur e + 4) ltac:(lia)) as Q; rewrite Hcx in Q; now injection Q). subst c. split; [reflexivity|].
    destruct (Z.eq_dec (e_cur e + 4) a) as [E|E].
    + assert (e_byte e <> b0). { intro X. destruct I as [I1 _ _ _ _ _ _ _ _]. apply (s_left _ _ _ _ S ltac:(lia)). replace (a - 1) with (e_cur e + 3) by lia. now rewrite R3, X. }
      replace (e_byte e =? b0) with false by lia. lia.
    + destruct (R4 ltac:(lia)) as [X Y]. rewrite X, Z.eqb_refl. lia.
Qed.
Lemma eloop_rinv m src trgt lazy mx a bb b0 : Forall is_byte trgt -> zlen trgt < 2 ^ 64 -> zlen src < 2 ^ 64 -> mx <= zlen trgt -> stretch trgt a bb b0 -> forall fuel e e',
  einv src trgt mx e -> minv e -> rinv trgt a bb b0 e -> eloop fuel m src trgt lazy mx e = Ok e' -> einv src trgt mx e' /\ rinv trgt a bb b0 e' /\ mx <= e_cur e' + 4.
Proof.
  intros Hb Hlt Hls Hmx S. induction fuel as [|k IH]; intros e e' I M R H; cbn [eloop] in H; destruct (e_cur e + 4 >=? mx) eqn:E; try discriminate;
    try (injection H as <-; split; [exact I|]; split; [exact R|lia]).
  apply bind_ok in H as (e1 & H1 & H). apply (IH e1); [eapply estep_inv; eauto; lia|eapply estep_minv; eauto; lia|eapply estep_rinv; eauto; lia|exact H].
Qed.
(** All but 4 bytes of a stretch of equal bytes lie in at most two candidates. *)
Definition two_pieces (cs : list cand) (a bb K : Z) : Prop := exists x1 y1 x2 y2,
  a <= x1 <= y1 /\ y1 <= x2 <= y2 /\ y2 <= bb /\ (x1 = y1 \/ covers cs x1 y1) /\ (x2 = y2 \/ covers cs x2 y2) /\ (bb - a) - (y1 - x1) - (y2 - x2) <= K.
Lemma encode_inner_runs m c src trgt cs a bb b0 : Forall is_byte trgt -> zlen trgt < 2 ^ 64 -> zlen src < 2 ^ 64 -> (ic_trgt c <> None \/ ic_src c <> None /\ 0 < zlen src) -> stretch trgt a bb b0 ->
  encode_inner m c src trgt = Ok cs -> two_pieces cs a bb 4.
Proof.
  intros Hb Hlt Hls Hcf S H. pose proof (s_4 _ _ _ _ S) as H4. pose proof (s_a _ _ _ _ S) as Ha. pose proof (s_bb _ _ _ _ S) as Hbb.
  assert (H' : (let '(ops, cur, mx) := naive_tests (ic_naive c) src trgt in
      do tm <- match ic_trgt c with None => Ok None | Some tc => do t <- trgt_build m tc trgt cur; Ok (Some t) end;
      do sm <- match ic_src c with None => Ok None | Some sc => do s <- src_build m sc src cur trgt; Ok (Some s) end;
      let lazy := match ic_lazy c with Some n => n | None => 90 end in
      let e := mkE ops cur 4 0 0 StartNewMatch sm tm in
      do e <- eloop (4 * length trgt + 4) m src trgt lazy mx e;
      do _ <- assert_ (e_cur e <=? zlen trgt);
      let ops := rev (e_ops e) in
      Ok (if mx <? zlen trgt then ops ++ [MSrc 0 (zlen src) mx] else ops)) = Ok cs).
  { unfold encode_inner in H. replace (zlen trgt =? 0) with false in H by lia. destruct (ic_trgt c) as [tc|].
    - rewrite andb_false_r in H. destruct (ic_src c); exact H.
    - destruct Hcf as [Hcf|[Hcf Hz]]; [now contradiction Hcf|]. replace (zlen src =? 0) with false in H by lia. destruct (ic_src c); [exact H|now contradiction Hcf]. }
  clear H. destruct (naive_tests (ic_naive c) src trgt) as [[ops cur] mx] eqn:En.
  destruct (naive_tests_ok src trgt _ _ _ _ En) as (N1 & N2 & N3 & N4 & N5 & N6 & N8 & N7).
  apply bind_ok in H' as (tm & Htm & H). apply bind_ok in H as (sm & Hsm & H). cbv zeta in H.
  apply bind_ok in H as (e & He & H). apply bind_ok in H as (u & _ & H).
  destruct (build_rels m c src trgt cur tm sm ltac:(lia) Htm Hsm) as [R1 R2]. pose proof (einv_start src trgt _ _ _ _ tm sm En R2 R1) as I0.
  assert (Q0 : rinv trgt a bb b0 (mkE ops cur 4 0 0 StartNewMatch sm tm)).
  { unfold rinv. cbn [e_st e_cur e_ops]. destruct (Z_le_dec cur a) as [L|L]; [right; left; auto|].
    destruct (rinv_jump a bb ops cur H4 ltac:(lia)) as [K|(K1 & K2 & K3)]; [|now left|right; right; auto].
    destruct ops as [|h ops]; [cbn [last_end] in N5; lia|]. cbn [last_end head_pos_le] in N5, N6. apply covers_head; unfold c_end; lia. }
  destruct (eloop_rinv m src trgt _ mx a bb b0 Hb Hlt Hls N3 S _ _ e I0 Logic.I Q0 He) as (I1 & Q1 & Hend).
  assert (Cv : forall x y, covers (e_ops e) x y -> covers cs x y).
  { intros x y (d & A & B). exists d. split; [|exact B]. destruct (mx <? zlen trgt); injection H as <-; [apply in_or_app; left|]; now rewrite <- in_rev. }
  assert (Lst : forall x y, mx <= x -> y <= zlen trgt -> x < y -> covers cs x y).
  { intros x y Hx Hy Hxy. replace (mx <? zlen trgt) with true in H by lia. injection H as <-. exists (MSrc 0 (zlen src) mx). split; [apply in_or_app; right; now left|].
    destruct (N7 ltac:(lia)) as [M1 M2]. unfold c_end. cbn [c_pos c_len]. split; [lia|]. unfold c_end in M2. cbn in M2. lia. }
  assert (Tail : forall p, a <= p <= bb -> p = a \/ covers cs a p -> mx <= p + 4 -> two_pieces cs a bb 4).
  { intros p Hp Hpa Hm. exists a, p, (Z.max p (Z.min bb mx)), bb. split; [lia|]. split; [lia|]. split; [lia|]. split; [destruct Hpa; auto|]. split; [|lia].
    destruct (Z_lt_dec (Z.max p (Z.min bb mx)) bb) as [L|L]; [right; apply Lst; lia|left; lia]. }
  destruct Q1 as [(j & J1 & J2 & J3)|[[L _]|(L1 & L2 & L3 & _)]].
  - destruct J3 as [J3|J3].
    + exists a, j, j, bb. repeat (split; [lia|]). split; [destruct J2; [left; lia|right; auto]|]. split; [right; auto|lia].
    + exists a, j, j, j. repeat (split; [lia|]). split; [destruct J2; [left; lia|right; auto]|]. split; [now left|lia].
  - apply (Tail a); [lia|now left|lia].
  - apply (Tail (e_cur e)); [lia|right; auto|lia].
Qed.

(** ** From candidates to operations *)
Lemma cov1_split x1 y1 x2 y2 c : x1 <= y1 -> y1 <= x2 -> x2 <= y2 -> cov1 x1 y1 c + cov1 x2 y2 c <= cov1 x1 y2 c.
Proof. unfold cov1. lia. Qed.
Lemma cov_split x1 y1 x2 y2 cs : x1 <= y1 -> y1 <= x2 -> x2 <= y2 -> cov x1 y1 cs + cov x2 y2 cs <= cov x1 y2 cs.
Proof.
  intros A B C. induction cs as [|c cs IH]; [cbn; lia|]. rewrite !cov_cons. pose proof (cov1_split x1 y1 x2 y2 c A B C). lia.
Qed.
Lemma cov_sub x x' y y' cs : x' <= x -> y <= y' -> cov x y cs <= cov x' y' cs.
Proof. intros A B. pose proof (cov_mono x' x y cs A). pose proof (cov_mono_r x' y y' cs B). lia. Qed.
Lemma translate_two m src trgt cs ops a bb K : Forall is_byte trgt -> zlen trgt < 2 ^ 64 -> zlen src < 2 ^ 64 -> Forall (cand_sound src trgt) cs -> cands_ordered cs -> 0 <= a ->
  two_pieces cs a bb K -> translate_inner_ops m trgt cs = Ok ops -> literals_in a bb 0 ops <= K + 26.
Proof.
  intros Hb Hl Hls Hs Ho Ha (x1 & y1 & x2 & y2 & A1 & A2 & A3 & C1 & C2 & HK) H.
  apply (translate_lits m src trgt cs ops a bb (K + 26) Hb Hl Hls Hs Ho); [lia| | |exact H].
  - intros one rest r -> Hr _. apply Forall_cons_iff in Hs as [H1 H2].
    assert (L : forall x y, x <= y -> x = y \/ covers (one :: rest) x y -> y - x - 13 <= cov x y r).
    { intros x y Hxy [E|(d & D1 & D2 & D3)]; [pose proof (cov_nonneg x y r); lia|]. exact (loss_any m src trgt Hl d x y D2 D3 rest one r H1 H2 Ho D1 Hr). }
    pose proof (L x1 y1 ltac:(lia) C1). pose proof (L x2 y2 ltac:(lia) C2). pose proof (cov_split x1 y1 x2 y2 r ltac:(lia) ltac:(lia) ltac:(lia)).
    pose proof (cov_sub x1 a y2 bb r ltac:(lia) ltac:(lia)). lia.
  - intros ->. assert (N : forall x y, covers [] x y -> False) by (intros x y (d & D & _); exact D). destruct C1 as [C1|C1]; [|now apply N in C1]. destruct C2 as [C2|C2]; [|now apply N in C2]. lia.
Qed.
Lemma literals_mono x y x' y' : x' <= x -> y <= y' -> forall ops pos, literals_in x y pos ops <= literals_in x' y' pos ops.
Proof. intros A B. induction ops as [|o ops IH]; intro pos; cbn [literals_in]; [lia|]. specialize (IH (pos + op_len o)). destruct (is_add o); lia. Qed.

(** Every stretch of equal bytes is part of a maximal one. *)
Lemma extend_left (trgt : list Z) b0 y : forall n x, x = Z.of_nat n -> x < y -> y <= zlen trgt -> (forall i, x <= i < y -> idx trgt i = Ok b0) ->
  exists a, 0 <= a <= x /\ (forall i, a <= i < y -> idx trgt i = Ok b0) /\ (0 < a -> idx trgt (a - 1) <> Ok b0).
Proof.
  induction n as [|n IH]; intros x Hx Hy Hl H.
  - exists 0. split; [lia|]. split; [intros i Hi; apply H; lia|lia].
  - destruct (idx_ok trgt (x - 1) ltac:(lia)) as (v & Hv & _). destruct (Z.eq_dec v b0) as [->|N].
    + destruct (IH (x - 1) ltac:(lia) ltac:(lia) Hl) as (a & A & B & C); [intros i Hi; destruct (Z.eq_dec i (x - 1)) as [->|]; [exact Hv|apply H; lia]|]. exists a. split; [lia|auto].
    + exists x. split; [lia|]. split; [exact H|]. intros _. rewrite Hv. congruence.
Qed.
Lemma stretch_exists trgt x n b0 : 0 <= x -> 4 <= n -> x + n <= zlen trgt -> sub trgt x n = rep b0 n -> exists a bb, a <= x /\ x + n <= bb /\ stretch trgt a bb b0.
Proof.
  intros Hx Hn Hl H. assert (In0 : forall i, x <= i < x + n -> idx trgt i = Ok b0).
  { intros i Hi. replace i with (x + (i - x)) by lia. rewrite <- (idx_sub trgt x n (i - x)) by lia. rewrite H. apply idx_rep. lia. }
  destruct (extend_left trgt b0 (x + n) (Z.to_nat x) x ltac:(lia) ltac:(lia) Hl In0) as (a & A1 & A2 & A3).
  pose proof (run_count_bound b0 (drop x trgt)) as B. pose proof (run_count_max b0 (drop x trgt)) as M. pose proof (run_count_take b0 (drop x trgt)) as T.
  set (k := run_count b0 (drop x trgt)) in *. rewrite zlen_drop in * by lia.
  assert (I : forall j, 0 <= j < zlen trgt - x -> idx (drop x trgt) j = idx trgt (x + j)) by (intros j Hj; rewrite drop_is_sub by lia; apply idx_sub; lia).
  assert (K : n <= k). { destruct (Z_le_dec n k) as [L|L]; [exact L|]. exfalso. destruct M as [M|M]; [lia|]. apply M. rewrite I by lia. apply In0. lia. }
  exists a, (x + k). split; [lia|]. split; [lia|]. constructor; try lia.
  - intros i Hi. destruct (Z_lt_dec i (x + n)) as [L|L]; [apply A2; lia|]. assert (E : idx (take k (drop x trgt)) (i - x) = Ok b0) by (rewrite T; apply idx_rep; lia).
    rewrite take_is_sub, idx_sub, Z.add_0_l, I in E by (rewrite ?zlen_drop; lia). replace (x + (i - x)) with i in E by lia. exact E.
  - exact A3.
  - intro L. destruct M as [M|M]; [lia|]. rewrite I in M by lia. exact M.
Qed.
