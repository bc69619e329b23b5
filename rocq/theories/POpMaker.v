(** Proofs about operation making (op_maker.rs). *)
From Verif Require Import Base Spec SpecEnc MCommon MOpMaker PBase PDecoder PWriter.
Ltac Zify.zify_post_hook ::= idtac.

(** [ops], executed after output [out], append exactly [b]; all operations are within the limits and not empty. *)
Definition makes (d out : list Z) (ops : list op) (b : list Z) : Prop :=
  Forall op_good ops /\ run_ops d out ops = Some (out ++ b).

Lemma makes_nil d out : makes d out [] [].
Proof. split; [constructor|]. cbn. now rewrite app_nil_r. Qed.
Lemma makes_app d out a b ba bb : makes d out a ba -> makes d (out ++ ba) b bb -> makes d out (a ++ b) (ba ++ bb).
Proof.
  intros [H1 H2] [H3 H4]. split; [now apply Forall_app|]. rewrite run_ops_app, H2, H4. now rewrite app_assoc.
Qed.
Lemma makes_cons d out x b ops bb : op_good x -> op_bytes d out x = Some b -> makes d (out ++ b) ops bb ->
  makes d out (x :: ops) (b ++ bb).
Proof. intros H1 H2 [H3 H4]. split; [now constructor|]. cbn [run_ops]. rewrite H2, H4. now rewrite app_assoc. Qed.

Lemma in_range_true l a n : 0 <= a -> a + n <= zlen l -> in_range l a n = true.
Proof. intros. unfold in_range. apply orb_true_iff. right. lia. Qed.

Lemma add_chunks_ok d : forall fuel bytes out, (length bytes <= fuel)%nat -> Forall is_byte bytes ->
  exists ops, add_chunks fuel bytes = Ok ops /\ makes d out ops bytes /\ forallb is_add ops = true.
Proof.
  induction fuel as [|k IH]; intros bytes out Hf Hb; cbn [add_chunks].
  - destruct bytes; [|cbn in Hf; lia]. exists []. split; [reflexivity|]. split; [apply makes_nil|reflexivity].
  - destruct (zlen bytes =? 0) eqn:E.
    + exists []. split; [reflexivity|]. assert (bytes = []) by (apply zlen_0; lia). subst. split; [apply makes_nil|reflexivity].
    + assert (Hpos : 0 < zlen bytes) by (pose proof (zlen_nonneg bytes); lia). unfold MAX_INST_SIZE.
      set (n := Z.min (zlen bytes) 65535).
      assert (Hn : 1 <= n <= zlen bytes /\ n <= 65535) by (unfold n; lia).
      destruct (IH (drop n bytes) (out ++ take n bytes)) as (ops & E1 & M & A).
      { assert (Hd := zlen_drop n bytes ltac:(lia)). unfold zlen in *. lia. }
      { now apply Forall_drop. }
      exists (Add (take n bytes) :: ops). rewrite E1. cbn [bind]. split; [reflexivity|]. split; [|exact A].
      rewrite <- (take_drop n bytes) at 2. apply makes_cons; [|reflexivity|exact M].
      repeat split; cbn [op_typed op_legal op_len]; [now apply Forall_take| |]; rewrite zlen_take by lia; lia.
Qed.

Lemma make_add_ops_ok d bytes out : Forall is_byte bytes ->
  exists ops, make_add_ops bytes = Ok ops /\ makes d out ops bytes /\ forallb (fun o => negb (is_copy o)) ops = true.
Proof.
  intro Hb. unfold make_add_ops.
  assert (G : exists ops, add_chunks (length bytes) bytes = Ok ops /\ makes d out ops bytes /\ forallb (fun o => negb (is_copy o)) ops = true).
  { destruct (add_chunks_ok d (length bytes) bytes out (le_n _) Hb) as (ops & H1 & H2 & H3). exists ops. split; [exact H1|].
    split; [exact H2|]. rewrite forallb_forall in *. intros x Hx. specialize (H3 x Hx). now destruct x. }
  destruct bytes as [|b [|b2 r]]; try exact G.
  exists [Run b 1]. split; [reflexivity|]. split; [|reflexivity].
  rewrite <- (app_nil_r [b]). apply makes_cons; [|reflexivity|apply makes_nil].
  inversion Hb; subst. repeat split; cbn; unfold is_byte in *; lia.
Qed.

Definition from_src (s : csrc) (d out : list Z) : list Z := match s with Dict => d | Output => out end.
Lemma copy_chunks_ok d s : forall fuel addr rem out, rem <= 65535 * Z.of_nat fuel -> 0 <= addr -> 0 <= rem ->
  addr + rem <= zlen (from_src s d out) -> addr + rem < 2 ^ 64 ->
  exists ops, copy_chunks fuel s addr rem = Ok ops /\ makes d out ops (sub (from_src s d out) addr rem) /\
              Forall (fun o => match o with Copy s' _ _ => s' = s | _ => False end) ops.
Proof.
  induction fuel as [|k IH]; intros addr rem out Hf Ha Hr Hle Hlt; cbn [copy_chunks].
  - replace (rem <=? 0) with true by lia. exists []. split; [reflexivity|]. rewrite sub_0 by lia. split; [apply makes_nil|constructor].
  - destruct (rem <=? 0) eqn:E.
    + exists []. split; [reflexivity|]. rewrite sub_0 by lia. split; [apply makes_nil|constructor].
    + unfold MAX_INST_SIZE. set (n := Z.min 65535 rem). assert (Hn : 1 <= n <= rem /\ n <= 65535) by (unfold n; lia).
      assert (Hnf : n = 65535 \/ n = rem) by (unfold n; lia).
      set (b := sub (from_src s d out) addr n).
      assert (Hfr : forall x, addr + x <= zlen (from_src s d out) -> 0 <= x -> forall a, 0 <= a -> a <= addr ->
                 sub (from_src s d (out ++ b)) (a + (addr - a)) x = sub (from_src s d out) addr x).
      { intros x Hx Hx0 a _ _. replace (a + (addr - a)) with addr by lia. destruct s; cbn [from_src] in *; [reflexivity|]. rewrite sub_app_l; auto. }
      destruct (IH (addr + n) (rem - n) (out ++ b)) as (ops & E1 & M & A); try lia.
      { destruct s; cbn [from_src] in *; [lia|]. rewrite zlen_app. pose proof (zlen_nonneg b). lia. }
      exists (Copy s addr (to_u16 n) :: ops). rewrite E1. cbn [bind]. rewrite to_u16_id by lia. split; [reflexivity|].
      split; [|now constructor].
      rewrite (sub_split _ addr rem n) by lia. fold b. apply makes_cons.
      * repeat split; cbn; lia.
      * destruct s; cbn [op_bytes from_src] in *; (rewrite in_range_true by lia); reflexivity.
      * destruct s; cbn [from_src] in M |- *; [exact M|]. rewrite sub_app_l in M by (cbn [from_src] in Hle; lia). exact M.
Qed.
Lemma make_copy_ops_ok d s start len out : 0 <= start -> 0 <= len -> start + len <= zlen (from_src s d out) -> start + len < 2 ^ 64 ->
  exists ops, make_copy_ops s start len = Ok ops /\ makes d out ops (sub (from_src s d out) start len) /\
              Forall (fun o => match o with Copy s' _ _ => s' = s | _ => False end) ops.
Proof.
  intros. apply copy_chunks_ok; try assumption. unfold MAX_INST_SIZE.
  pose proof (Z.div_pos len 65535 ltac:(lia) ltac:(lia)). rewrite Z2Nat.id by lia.
  pose proof (Z.mul_succ_div_gt len 65535 ltac:(lia)). lia.
Qed.

Lemma run_chunks_ok d byte : is_byte byte -> forall fuel rem out, 0 <= rem <= 62 * Z.of_nat fuel ->
  exists ops, run_chunks fuel byte rem = Ok ops /\ makes d out ops (rep byte rem) /\ forallb (fun o => negb (is_copy o)) ops = true.
Proof.
  intro Hb. induction fuel as [|k IH]; intros rem out Hr; cbn [run_chunks].
  - replace (rem <=? 0) with true by lia. exists []. rewrite rep_0 by lia. split; [reflexivity|]. split; [apply makes_nil|reflexivity].
  - destruct (rem <=? 0) eqn:E.
    + exists []. rewrite rep_0 by lia. split; [reflexivity|]. split; [apply makes_nil|reflexivity].
    + unfold MAX_RUN_LEN. set (n := Z.min 62 rem). assert (1 <= n <= rem /\ n <= 62) by (unfold n; lia).
      assert (n = 62 \/ n = rem) by (unfold n; lia).
      destruct (IH (rem - n) (out ++ rep byte n)) as (ops & E1 & M & A); [lia|].
      exists (Run byte (to_u8 n) :: ops). rewrite E1. cbn [bind]. rewrite to_u8_id by lia. split; [reflexivity|]. split; [|exact A].
      replace rem with (n + (rem - n)) at 1 by lia. rewrite <- rep_app by lia. apply makes_cons; [|reflexivity|exact M].
      unfold is_byte in Hb. repeat split; cbn; unfold is_byte; lia.
Qed.

Lemma run_copies_ok d byte addr pre : zlen pre = addr -> forall fuel max rem, 186 <= max -> 0 <= rem <= 186 * Z.of_nat fuel ->
  addr + max + rem < 2 ^ 64 ->
  exists ops, run_copies fuel addr max rem = Ok ops /\ makes d (pre ++ rep byte max) ops (rep byte rem) /\
              forallb (fun o => negb (is_dict_copy o)) ops = true.
Proof.
  intro Hp. induction fuel as [|k IH]; intros max rem Hm Hr Hlt; cbn [run_copies].
  - replace (rem <=? 0) with true by lia. exists []. rewrite (rep_0 byte rem) by lia. split; [reflexivity|]. split; [apply makes_nil|reflexivity].
  - destruct (rem <=? 0) eqn:E.
    + exists []. rewrite (rep_0 byte rem) by lia. split; [reflexivity|]. split; [apply makes_nil|reflexivity].
    + unfold MAX_INST_SIZE. set (n := Z.min (Z.min max rem) 65535). assert (1 <= n <= rem /\ n <= 65535 /\ n <= max) by (unfold n; lia).
      assert (186 <= n \/ n = rem) by (unfold n; lia).
      destruct (IH (max + n) (rem - n)) as (ops & E1 & M & A); try lia.
      exists (Copy Output addr (to_u16 n) :: ops). rewrite E1. cbn [bind]. rewrite to_u16_id by lia. split; [reflexivity|]. split; [|exact A].
      replace rem with (n + (rem - n)) by lia. rewrite <- (rep_app _ n) by lia. apply makes_cons.
      * pose proof (zlen_nonneg pre). repeat split; cbn; lia.
      * pose proof (zlen_nonneg pre). cbn [op_bytes]. rewrite in_range_true by (rewrite ?zlen_app, ?zlen_rep; lia).
        rewrite sub_app_r by lia. rewrite sub_rep by lia. reflexivity.
      * rewrite <- app_assoc, rep_app by lia. exact M.
Qed.

Lemma make_run_ops_ok d byte len out : is_byte byte -> 0 <= len -> zlen out + len < 2 ^ 64 ->
  exists ops, make_run_ops byte len (zlen out) = Ok ops /\ makes d out ops (rep byte len) /\
              forallb (fun o => negb (is_dict_copy o)) ops = true.
Proof.
  intros Hb Hl Hlt. unfold make_run_ops, RUN_LIMIT, COPY_LIMIT. destruct (len <? 372) eqn:E.
  - destruct (run_chunks_ok d byte Hb 6 len out ltac:(lia)) as (ops & H1 & H2 & H3). exists ops. split; [exact H1|]. split; [exact H2|].
    rewrite forallb_forall in *. intros x Hx. specialize (H3 x Hx). destruct x as [| |[]]; auto.
  - pose proof (Z.div_pos (len - 186) 186 ltac:(lia) ltac:(lia)).
    pose proof (Z.mul_succ_div_gt (len - 186) 186 ltac:(lia)).
    destruct (run_copies_ok d byte (zlen out) out eq_refl (Z.to_nat ((len - 186) / 186 + 1)) 186 (len - 186)) as (ops & H1 & H2 & H3); try lia.
    rewrite H1. cbn [bind]. eexists. split; [reflexivity|]. split; [|rewrite forallb_app, H3; reflexivity].
    assert (R : forall o, makes d o [Run byte 62] (rep byte 62)).
    { intro o. rewrite <- (app_nil_r (rep byte 62)). apply makes_cons; [|reflexivity|apply makes_nil].
      unfold is_byte in Hb. repeat split; cbn; unfold is_byte; lia. }
    change (rep (Run byte MAX_RUN_LEN) 3) with ([Run byte 62] ++ [Run byte 62] ++ [Run byte 62]).
    replace len with (186 + (len - 186)) at 1 by lia. rewrite <- (rep_app byte 186) by lia.
    apply makes_app; [|exact H2].
    replace (rep byte 186) with (rep byte 62 ++ rep byte 62 ++ rep byte 62) by (rewrite !rep_app by lia; reflexivity).
    repeat (apply makes_app; [apply R|]). apply R.
Qed.

(** ** First pass *)
(** Starts sorted and ranges disjoint. *)
Fixpoint disjoint (from : Z) (l : list cand) : Prop :=
  match l with [] => True | c :: r => from <= c_pos c /\ disjoint (c_end c) r end.

Lemma cands_ordered_tail a l : cands_ordered (a :: l) -> cands_ordered l.
Proof. destruct l as [|b l]; [easy|]. intros (_ & _ & H). exact H. Qed.
Lemma cands_ordered_skip a b l : cands_ordered (a :: b :: l) -> cands_ordered (a :: l).
Proof. destruct l as [|c l]; [easy|]. cbn. intros (H1 & H2 & H3 & H4 & H5). repeat split; auto; lia. Qed.

Lemma sub_shift_eq (x y : list Z) a b n k : sub x a n = sub y b n -> 0 <= k <= n -> 0 <= a -> 0 <= b ->
  sub x (a + k) (n - k) = sub y (b + k) (n - k).
Proof.
  intros H Hk Ha Hb. assert (E : forall (l : list Z) p, 0 <= p -> sub l (p + k) (n - k) = drop k (sub l p n)).
  { intros l p Hp. unfold sub. rewrite <- (drop_drop k p l) by lia. rewrite (take_drop_comm (n - k) k) by lia.
    now replace (k + (n - k)) with n by lia. }
  now rewrite !E, H by lia.
Qed.
Lemma cand_sound_trunc src trgt c n c' : cand_sound src trgt c -> 0 <= n -> set_len c n = Ok c' ->
  cand_sound src trgt c' /\ c_pos c' = c_pos c /\ c_len c' = n /\ n <= c_len c.
Proof.
  intros (H1 & H2 & H3 & H4) Hn E. unfold set_len, assert_ in E. destruct (n <=? c_len c) eqn:El; [|discriminate].
  cbn [bind] in E. injection E as <-. unfold c_end in *.
  destruct c as [s k p|s k p|b k p]; cbn [c_pos c_len] in *; (split; [|split; [reflexivity|split; [reflexivity|lia]]]);
    (split; [exact H1|]; split; [exact Hn|]; unfold c_end; cbn [c_pos c_len]; split; [lia|]).
  - destruct H4 as (A & B & C). split; [exact A|]. split; [lia|].
    rewrite <- (take_sub trgt p k n), <- (take_sub src s k n), C by lia. reflexivity.
  - destruct H4 as (A & B & C). split; [exact A|]. split; [lia|].
    rewrite <- (take_sub trgt p k n), <- (take_sub trgt s k n), C by lia. reflexivity.
  - destruct H4 as (A & B). split; [exact A|]. rewrite <- (take_sub trgt p k n), B by lia.
    rewrite take_is_sub, sub_rep by lia. reflexivity.
Qed.
Lemma set_len_ok c n : n <= c_len c -> exists c', set_len c n = Ok c'.
Proof. intro H. unfold set_len, assert_. replace (n <=? c_len c) with true by lia. cbn [bind]. eauto. Qed.
Lemma cand_sound_shift m src trgt c np : cand_sound src trgt c -> c_pos c <= np <= c_end c -> zlen trgt < 2 ^ 64 ->
  exists c', set_o_pos m c np = Ok c' /\ cand_sound src trgt c' /\ c_pos c' = np /\ c_end c' = c_end c.
Proof.
  intros (H1 & H2 & H3 & H4) Hn Hl. unfold set_o_pos, assert_. replace (np >=? c_pos c) with true by lia. cbn [bind].
  unfold c_end in *. rewrite usub_ok by lia. cbn [bind]. eexists. split; [reflexivity|].
  destruct c as [s k p|s k p|b k p]; cbn [c_pos c_len] in *; (split; [|split; [reflexivity|lia]]);
    (split; [cbn [c_pos]; lia|]; split; [cbn [c_len]; lia|]; unfold c_end; cbn [c_pos c_len]; split; [lia|]).
  - destruct H4 as (A & B & C). split; [lia|]. split; [lia|].
    replace np with (p + (np - p)) at 1 by lia. apply sub_shift_eq; auto; lia.
  - destruct H4 as (A & B & C). split; [lia|]. split; [lia|].
    replace np with (p + (np - p)) at 1 by lia. apply sub_shift_eq; auto; lia.
  - destruct H4 as (A & B). split; [exact A|].
    transitivity (sub (rep b k) (0 + (np - p)) (k - (np - p))).
    + replace np with (p + (np - p)) at 1 by lia. apply sub_shift_eq; try lia. rewrite B. rewrite sub_rep by lia. reflexivity.
    + rewrite sub_rep by lia. reflexivity.
Qed.

Lemma pass1_ok m src trgt : zlen trgt < 2 ^ 64 -> forall rest one, cand_sound src trgt one -> Forall (cand_sound src trgt) rest ->
  cands_ordered (one :: rest) ->
  exists r, pass1 m one rest = Ok r /\ Forall (cand_sound src trgt) r /\ disjoint (c_pos one) r.
Proof.
  intro Hl. induction rest as [|two rest IH]; intros one Ho Hr Hs; cbn [pass1].
  - exists [one]. split; [reflexivity|]. split; [now constructor|]. cbn. split; [lia|exact I].
  - apply Forall_cons_iff in Hr as [Ht Hr]. pose proof Hs as (Hp & He & Hs').
    assert (Hone := Ho). destruct Hone as (O1 & O2 & O3 & _). assert (Htwo := Ht). destruct Htwo as (T1 & T2 & T3 & _).
    unfold c_end in *. unfold assert_ at 1. replace (c_pos one <=? c_pos two) with true by lia. cbn [bind].
    destruct (c_pos one + c_len one <=? c_pos two) eqn:E1.
    { destruct (IH two Ht Hr Hs') as (r & Er & Sr & Dr). rewrite Er. cbn [bind]. eexists. split; [reflexivity|].
      split; [now constructor|]. cbn [disjoint]. split; [lia|]. unfold c_end. destruct r as [|c r]; [exact I|]. cbn in *. split; [lia|apply Dr]. }
    destruct (match rest with three :: _ => c_pos one + c_len one >? c_pos three | [] => false end) eqn:E2.
    { apply IH; auto. eapply cands_ordered_skip; eauto. }
    rewrite usub_ok by lia. cbn [bind].
    destruct ((c_pos two + c_len two - c_pos one <=? 13) || (c_pos two - c_pos one <=? 4)) eqn:E3.
    { destruct (c_len one <? c_len two) eqn:E4.
      - destruct (IH two Ht Hr Hs') as (r & Er & Sr & Dr). exists r. split; [exact Er|]. split; [exact Sr|].
        destruct r as [|c r]; [exact I|]. cbn in *. split; [lia|apply Dr].
      - apply IH; auto. eapply cands_ordered_skip; eauto. }
    unfold assert_ at 1. replace (c_pos two + c_len two >=? c_pos one + c_len one) with true by lia. cbn [bind].
    set (mid := c_pos two + (c_pos one + c_len one - c_pos two) / 2).
    assert (Hmid : c_pos two <= mid < c_pos one + c_len one).
    { unfold mid. pose proof (Z.div_pos (c_pos one + c_len one - c_pos two) 2 ltac:(lia) ltac:(lia)).
      pose proof (Z.div_lt (c_pos one + c_len one - c_pos two) 2 ltac:(lia) ltac:(lia)). lia. }
    destruct (set_len_ok one (mid - c_pos one) ltac:(lia)) as (one' & Eo). rewrite Eo. cbn [bind].
    destruct (cand_sound_trunc src trgt one (mid - c_pos one) one' Ho ltac:(lia) Eo) as (So & Po & Lo & _).
    destruct (cand_sound_shift m src trgt two mid Ht ltac:(unfold c_end; lia) Hl) as (two' & Et & St & Pt & Et'). rewrite Et. cbn [bind].
    unfold debug_assert_, assert_. replace (c_pos one' + c_len one' =? c_pos two') with true by lia.
    replace (match m with Debug => Ok tt | Release => Ok tt end) with (Ok tt) by (now destruct m). cbn [bind].
    destruct (IH two' St Hr) as (r & Er & Sr & Dr).
    { destruct rest as [|three rest]; [exact I|]. cbn in Hs'. destruct Hs' as (A & B & C). cbn. unfold c_end in *.
      rewrite Pt. split; [lia|]. split; [lia|]. exact C. }
    rewrite Er. cbn [bind]. eexists. split; [reflexivity|]. split; [now constructor|]. cbn [disjoint]. split; [lia|].
    unfold c_end. rewrite Po, Lo. replace (c_pos one + (mid - c_pos one)) with (c_pos two') by lia. exact Dr.
Qed.

(** ** Second pass *)
Lemma disjoint_weaken a b l : a <= b -> disjoint b l -> disjoint a l.
Proof. destruct l; cbn; intuition lia. Qed.

Definition no_dict_if (b : bool) (ops : list op) : Prop := b = true -> existsb is_dict_copy ops = false.
Definition c_src (c : cand) : bool := match c with MSrc _ n _ => 0 <? n | _ => false end.

Lemma no_copy_no_dict ops : forallb (fun o => negb (is_copy o)) ops = true -> existsb is_dict_copy ops = false.
Proof. induction ops as [|x ops IH]; [reflexivity|]. cbn. rewrite andb_true_iff. intros [H1 H2]. rewrite IH by exact H2. destruct x; auto; discriminate. Qed.
Lemma nodict_forallb ops : forallb (fun o => negb (is_dict_copy o)) ops = true -> existsb is_dict_copy ops = false.
Proof. induction ops as [|x ops IH]; [reflexivity|]. cbn. rewrite andb_true_iff. intros [H1 H2]. rewrite IH by exact H2. destruct (is_dict_copy x); auto; discriminate. Qed.
Lemma copies_no_dict ops : Forall (fun o => match o with Copy s' _ _ => s' = Output | _ => False end) ops -> existsb is_dict_copy ops = false.
Proof. induction 1 as [|x l Hx _ IH]; [reflexivity|]. cbn. rewrite IH. destruct x as [| |[]]; try easy. Qed.

Lemma pass2_ok src trgt : Forall is_byte trgt -> zlen trgt < 2 ^ 64 -> zlen src < 2 ^ 64 -> forall cs pos,
  Forall (cand_sound src trgt) cs -> disjoint pos cs -> 0 <= pos <= zlen trgt ->
  exists ops, pass2 trgt cs pos = Ok ops /\ makes src (take pos trgt) ops (drop pos trgt) /\
              (existsb c_src cs = false -> existsb is_dict_copy ops = false).
Proof.
  intros Hb Hlt Hls. induction cs as [|c cs IH]; intros pos Hs Hd Hp; cbn [pass2].
  - destruct (zlen trgt >? pos) eqn:E.
    + rewrite slice_ok by lia. cbn [bind]. rewrite <- drop_is_sub by lia.
      destruct (make_add_ops_ok src (drop pos trgt) (take pos trgt)) as (ops & H1 & H2 & H3); [now apply Forall_drop|].
      exists ops. split; [exact H1|]. split; [exact H2|]. intros _. now apply no_copy_no_dict.
    + rewrite drop_all by lia. exists []. split; [reflexivity|]. split; [apply makes_nil|reflexivity].
  - apply Forall_cons_iff in Hs as [Hc Hs]. cbn [disjoint] in Hd. destruct Hd as [Hd1 Hd2].
    assert (HH := Hc). destruct HH as (C1 & C2 & C3 & C4). unfold c_end in *.
    destruct (c_len c <=? 0) eqn:E0.
    { destruct (IH pos Hs) as (ops & A & B & C); [eapply disjoint_weaken; [|exact Hd2]; lia|lia|].
      exists ops. split; [exact A|]. split; [exact B|]. intro H. apply C. cbn [existsb] in H. apply orb_false_iff in H. apply H. }
    assert (Hadds : exists adds, (if c_pos c >? pos then do b <- slice trgt pos (c_pos c); make_add_ops b else Ok []) = Ok adds /\
       makes src (take pos trgt) adds (sub trgt pos (c_pos c - pos)) /\ existsb is_dict_copy adds = false).
    { destruct (c_pos c >? pos) eqn:E.
      - rewrite slice_ok by lia. cbn [bind].
        destruct (make_add_ops_ok src (sub trgt pos (c_pos c - pos)) (take pos trgt)) as (ops & H1 & H2 & H3); [now apply Forall_sub|].
        exists ops. split; [exact H1|]. split; [exact H2|]. now apply no_copy_no_dict.
      - rewrite sub_0 by lia. exists []. split; [reflexivity|]. split; [apply makes_nil|reflexivity]. }
    destruct Hadds as (adds & Ea & Ma & Na). rewrite Ea. cbn [bind].
    replace (Z.max pos (c_pos c)) with (c_pos c) by lia. rewrite Z.eqb_refl. cbn [assert_ bind].
    assert (Et : take pos trgt ++ sub trgt pos (c_pos c - pos) = take (c_pos c) trgt).
    { rewrite <- take_split by lia. f_equal. lia. }
    assert (Hthese : exists these, match c with
                  | MSrc start len _ => make_copy_ops Dict start len
                  | MTrgt start len _ =>
                      do _ <- assert_ (start + len <=? c_pos c);
                      make_copy_ops Output start len
                  | MRun byte len _ => make_run_ops byte len (c_pos c)
                  end = Ok these /\ makes src (take (c_pos c) trgt) these (sub trgt (c_pos c) (c_len c)) /\
                  (c_src c = false -> existsb is_dict_copy these = false)).
    { assert (Hz : zlen (take (c_pos c) trgt) = c_pos c) by (apply zlen_take; lia).
      destruct c as [s n p|s n p|b n p]; cbn [c_pos c_len c_src] in *.
      - destruct C4 as (A & B & C). destruct (make_copy_ops_ok src Dict s n (take p trgt)) as (ops & H1 & H2 & H3); try lia; [cbn [from_src]; lia|].
        exists ops. split; [exact H1|]. split; [rewrite C; exact H2|]. intro; lia.
      - destruct C4 as (A & B & C). unfold assert_. replace (s + n <=? p) with true by lia. cbn [bind].
        destruct (make_copy_ops_ok src Output s n (take p trgt)) as (ops & H1 & H2 & H3); try lia; [cbn [from_src]; lia|].
        exists ops. split; [exact H1|]. split; [|intros _; now apply copies_no_dict].
        rewrite C. cbn [from_src] in H2. replace (sub (take p trgt) s n) with (sub trgt s n) in H2; [exact H2|].
        rewrite take_is_sub, sub_sub by lia. reflexivity.
      - destruct C4 as (A & B). destruct (make_run_ops_ok src b n (take p trgt) A C2) as (ops & H1 & H2 & H3); [lia|].
        rewrite Hz in H1. exists ops. split; [exact H1|]. split; [rewrite B; exact H2|]. intros _. now apply nodict_forallb. }
    destruct Hthese as (these & Eth & Mth & Nth). rewrite Eth. cbn [bind].
    destruct (IH (c_pos c + c_len c) Hs Hd2 ltac:(lia)) as (ops & A & B & C). rewrite A. cbn [bind].
    eexists. split; [reflexivity|]. split.
    + rewrite (drop_sub_end trgt pos (c_pos c - pos)) by lia.
      apply makes_app; [exact Ma|]. rewrite Et. replace (pos + (c_pos c - pos)) with (c_pos c) by lia.
      rewrite (drop_sub_end trgt (c_pos c) (c_len c)) by lia. apply makes_app; [exact Mth|].
      rewrite <- take_split by lia. exact B.
    + intro H. cbn [existsb] in H. apply orb_false_iff in H as [H1 H2]. rewrite !existsb_app, Na, (Nth H1), (C H2). reflexivity.
Qed.

Lemma translate_ok m src trgt cs : Forall is_byte trgt -> zlen trgt < 2 ^ 64 -> zlen src < 2 ^ 64 ->
  Forall (cand_sound src trgt) cs -> cands_ordered cs ->
  exists ops, translate_inner_ops m trgt cs = Ok ops /\ makes src [] ops trgt /\ (src = [] -> existsb is_dict_copy ops = false).
Proof.
  intros Hb Hlt Hls Hs Ho. unfold translate_inner_ops.
  assert (exists r, match cs with [] => Ok [] | one :: rest => pass1 m one rest end = Ok r /\ Forall (cand_sound src trgt) r /\ disjoint 0 r) as (r & Er & Sr & Dr).
  { destruct cs as [|one rest].
    - exists []. split; [reflexivity|]. split; [constructor|exact I].
    - apply Forall_cons_iff in Hs as [H1 H2]. destruct (pass1_ok m src trgt Hlt rest one H1 H2 Ho) as (r & A & B & C).
      exists r. split; [exact A|]. split; [exact B|]. eapply disjoint_weaken; [|exact C]. apply H1. }
  rewrite Er. cbn [bind]. destruct (pass2_ok src trgt Hb Hlt Hls r 0 Sr Dr) as (ops & A & B & C); [pose proof (zlen_nonneg trgt); lia|].
  exists ops. split; [exact A|]. rewrite take_0, drop_0 in B by lia. split; [exact B|]. intros ->. apply C. clear - Sr.
  induction Sr as [|c r (_ & H2 & _ & H4) _ IH]; [reflexivity|]. cbn [existsb]. rewrite IH.
  destruct c as [s n p| |]; cbn in *; [|reflexivity|reflexivity]. change (zlen (@nil Z)) with 0 in H4. lia.
Qed.
