(** What matching can cost at most: every match pays for at least four bytes, on average. *)
From Verif Require Import Base Spec SpecEnc MCommon MHasher MHashmap MOpMaker MTrgtMatcher MSrcMatcher MEncInner PBase PDecoder POpMaker PEncInner PFind PLoss PRuns PEncode TSection PSection TSize.
Ltac Zify.zify_post_hook ::= idtac.
Arguments Z.add : simpl never.
Arguments Z.sub : simpl never.
Arguments Z.mul : simpl never.
Arguments Z.pow : simpl never.

(** Total length of candidates, and what they lack to be of length 4. *)
Definition total (cs : list cand) : Z := fold_right (fun c s => c_len c + s) 0 cs.
Definition lack1 (c : cand) : Z := Z.max 0 (4 - c_len c).
Definition lack (cs : list cand) : Z := fold_right (fun c s => lack1 c + s) 0 cs.
Lemma total_cons c cs : total (c :: cs) = c_len c + total cs.
Proof. reflexivity. Qed.
Lemma lack_cons c cs : lack (c :: cs) = lack1 c + lack cs.
Proof. reflexivity. Qed.
Lemma lack_nonneg cs : 0 <= lack cs.
Proof. induction cs as [|c cs IH]; [cbn; lia|]. rewrite lack_cons. unfold lack1. lia. Qed.
Lemma lack_app a b : lack (a ++ b) = lack a + lack b.
Proof. induction a as [|c a IH]; [reflexivity|]. cbn [app]. rewrite !lack_cons, IH. lia. Qed.
Lemma lack_rev a : lack (rev a) = lack a.
Proof. induction a as [|c a IH]; [reflexivity|]. cbn [rev]. rewrite lack_app, !lack_cons, IH. change (lack []) with 0. lia. Qed.

Lemma pass1_weight m src trgt (Hl : zlen trgt < 2 ^ 64) : forall rest one r, cand_sound src trgt one -> Forall (cand_sound src trgt) rest -> cands_ordered (one :: rest) ->
  pass1 m one rest = Ok r -> 4 * zlen r <= total r + lack1 one + lack rest.
Proof.
  induction rest as [|two rest IH]; intros one r Ho Hr Hs H.
  - cbn [pass1] in H. injection H as <-. change (zlen [one]) with 1. rewrite total_cons. change (total []) with 0. change (lack []) with 0. unfold lack1. lia.
  - apply Forall_cons_iff in Hr as [Ht Hr]. pose proof Hs as (Hp & He & Hs'). assert (Hone := Ho). destruct Hone as (O1 & O2 & O3 & _). assert (Htwo := Ht). destruct Htwo as (T1 & T2 & T3 & _).
    pose proof (lack_nonneg rest) as Hlk. rewrite lack_cons.
    cbn [pass1] in H. unfold c_end in *. unfold assert_ at 1 in H. replace (c_pos one <=? c_pos two) with true in H by lia. cbn [bind] in H.
    destruct (c_pos one + c_len one <=? c_pos two) eqn:E1.
    { apply bind_ok in H as (r' & Hr' & H). injection H as <-. specialize (IH two r' Ht Hr Hs' Hr'). rewrite zlen_cons, total_cons. unfold lack1 in *. lia. }
    destruct (match rest with three :: _ => c_pos one + c_len one >? c_pos three | [] => false end) eqn:E2.
    { specialize (IH one r Ho Hr (cands_ordered_skip _ _ _ Hs) H). unfold lack1 in *. lia. }
    rewrite usub_ok in H by lia. cbn [bind] in H.
    destruct ((c_pos two + c_len two - c_pos one <=? 13) || (c_pos two - c_pos one <=? 4)) eqn:E3.
    { destruct (c_len one <? c_len two) eqn:E4.
      - specialize (IH two r Ht Hr Hs' H). unfold lack1 in *. lia.
      - specialize (IH one r Ho Hr (cands_ordered_skip _ _ _ Hs) H). unfold lack1 in *. lia. }
    apply orb_false_iff in E3. unfold assert_ at 1 in H. replace (c_pos two + c_len two >=? c_pos one + c_len one) with true in H by lia. cbn [bind] in H.
    set (mid := c_pos two + (c_pos one + c_len one - c_pos two) / 2) in *.
    assert (Hmid : c_pos two <= mid < c_pos one + c_len one).
    { unfold mid. pose proof (Z.div_pos (c_pos one + c_len one - c_pos two) 2 ltac:(lia) ltac:(lia)).
      pose proof (Z.div_lt (c_pos one + c_len one - c_pos two) 2 ltac:(lia) ltac:(lia)). lia. }
    apply bind_ok in H as (one' & Eo & H). destruct (cand_sound_trunc src trgt one (mid - c_pos one) one' Ho ltac:(lia) Eo) as (So & Po & Lo & _).
    destruct (cand_sound_shift m src trgt two mid Ht ltac:(unfold c_end; lia) Hl) as (two' & Et & St & Pt & Et'). rewrite Et in H. cbn [bind] in H.
    apply bind_ok in H as (u & _ & H). apply bind_ok in H as (r' & Hr' & H). injection H as <-.
    assert (Ord : cands_ordered (two' :: rest)).
    { destruct rest as [|three rest]; [exact I|]. cbn in Hs'. destruct Hs' as (A & B & C). cbn. unfold c_end in *. rewrite Pt. split; [lia|]. split; [lia|]. exact C. }
    specialize (IH two' r' St Hr Ord Hr'). unfold c_end in *. rewrite zlen_cons, total_cons. unfold lack1 in *. lia.
Qed.

(** ** What an operation costs with address numbers of [k] bytes *)
Definition kcost (k : Z) (x : op) : Z := 1 + size_len (op_len x) + match x with Add bs => zlen bs | Run _ _ => 1 | Copy _ _ _ => k end.
Definition kcosts (k : Z) (ops : list op) : Z := fold_right (fun x s => kcost k x + s) 0 ops.
Lemma kcosts_cons k x ops : kcosts k (x :: ops) = kcost k x + kcosts k ops.
Proof. reflexivity. Qed.
Lemma kcosts_app k a b : kcosts k (a ++ b) = kcosts k a + kcosts k b.
Proof. induction a as [|x a IH]; [reflexivity|]. cbn [app]. rewrite !kcosts_cons, IH. lia. Qed.
Lemma size_len_16 n : 0 <= n -> 16 * size_len n <= n + (if n =? 0 then 32 else 0).
Proof. intro H. unfold size_len. destruct ((1 <=? n) && (n <=? 62)) eqn:E1; [destruct (n =? 0); lia|]. destruct (n =? 63) eqn:E2; destruct (n =? 0) eqn:E3; lia. Qed.

Lemma add_chunks_kcost k : forall fuel bytes ops, add_chunks fuel bytes = Ok ops -> 16 * kcosts k ops <= 17 * zlen bytes + (if zlen bytes =? 0 then 0 else 16).
Proof.
  induction fuel as [|f IH]; intros bytes ops H; cbn [add_chunks] in H; destruct (zlen bytes =? 0) eqn:E; try discriminate H; try (injection H as <-; change (kcosts k []) with 0; lia).
  cbv zeta in H. apply bind_ok in H as (r & Hr & H). injection H as <-. specialize (IH _ _ Hr). pose proof (zlen_nonneg bytes) as Hz. unfold MAX_INST_SIZE in *.
  set (n := Z.min (zlen bytes) 65535) in *. assert (Ht : zlen (take n bytes) = n) by (apply zlen_take; lia). assert (Hd : zlen (drop n bytes) = zlen bytes - n) by (apply zlen_drop; lia).
  rewrite kcosts_cons. unfold kcost. cbn [op_len]. rewrite Ht. rewrite Hd in IH. pose proof (size_len_16 n ltac:(lia)) as S. pose proof (size_len_range n) as S2. replace (n =? 0) with false in S by lia.
  destruct (zlen bytes - n =? 0) eqn:E2; lia.
Qed.
Lemma make_add_kcost k bytes ops : make_add_ops bytes = Ok ops -> 1 <= zlen bytes -> 16 * kcosts k ops <= 17 * zlen bytes + 16.
Proof.
  intros H Hz. assert (G : add_chunks (length bytes) bytes = Ok ops -> 16 * kcosts k ops <= 17 * zlen bytes + 16).
  { intro G. pose proof (add_chunks_kcost k _ _ _ G) as K. replace (zlen bytes =? 0) with false in K by lia. exact K. }
  unfold make_add_ops in H. destruct bytes as [|b [|b2 r]]; auto. injection H as <-. rewrite kcosts_cons. change (kcosts k []) with 0. unfold kcost. cbn [op_len]. change (size_len 1) with 0. change (zlen [b]) with 1. lia.
Qed.
Lemma copy_chunks_kcost k s : k <= 8 -> forall fuel addr rem ops, copy_chunks fuel s addr rem = Ok ops -> 0 < rem -> 16 * kcosts k ops <= 16 * (1 + k) + rem.
Proof.
  intro Hk. induction fuel as [|f IH]; intros addr rem ops H Hr; cbn [copy_chunks] in H; (replace (rem <=? 0) with false in H by lia); [discriminate|].
  cbv zeta in H. apply bind_ok in H as (r & Hr' & H). injection H as <-. unfold MAX_INST_SIZE in *. set (n := Z.min 65535 rem) in *. rewrite kcosts_cons. unfold kcost. cbn [op_len]. rewrite to_u16_id by lia.
  pose proof (size_len_16 n ltac:(lia)) as S. pose proof (size_len_range n) as S2. replace (n =? 0) with false in S by lia. destruct (rem - n <=? 0) eqn:E.
  - assert (r = []) by (destruct f; cbn [copy_chunks] in Hr'; rewrite E in Hr'; injection Hr' as <-; reflexivity). subst r. change (kcosts k []) with 0. lia.
  - specialize (IH _ _ _ Hr' ltac:(lia)). lia.
Qed.
Lemma run_chunks_kcost k b : forall fuel rem ops, run_chunks fuel b rem = Ok ops -> 0 < rem -> 16 * kcosts k ops <= 32 + rem.
Proof.
  induction fuel as [|f IH]; intros rem ops H Hr; cbn [run_chunks] in H; (replace (rem <=? 0) with false in H by lia); [discriminate|].
  cbv zeta in H. apply bind_ok in H as (r & Hr' & H). injection H as <-. unfold MAX_RUN_LEN in *. set (n := Z.min 62 rem) in *. rewrite kcosts_cons. unfold kcost. cbn [op_len]. rewrite to_u8_id by lia.
  assert (S : size_len n = 0) by (unfold size_len; replace ((1 <=? n) && (n <=? 62)) with true by lia; reflexivity). rewrite S. destruct (rem - n <=? 0) eqn:E.
  - assert (r = []) by (destruct f; cbn [run_chunks] in Hr'; rewrite E in Hr'; injection Hr' as <-; reflexivity). subst r. change (kcosts k []) with 0. lia.
  - specialize (IH _ _ Hr' ltac:(lia)). lia.
Qed.
Lemma run_copies_kcost k addr : 0 <= k <= 8 -> forall fuel max rem ops, run_copies fuel addr max rem = Ok ops -> 186 <= max -> 0 < rem -> 16 * kcosts k ops <= 16 * (3 + k) + rem.
Proof.
  intro Hk. induction fuel as [|f IH]; intros max rem ops H Hm Hr; cbn [run_copies] in H; (replace (rem <=? 0) with false in H by lia); [discriminate|].
  cbv zeta in H. apply bind_ok in H as (r & Hr' & H). injection H as <-. unfold MAX_INST_SIZE in *. set (n := Z.min (Z.min max rem) 65535) in *. rewrite kcosts_cons. unfold kcost. cbn [op_len]. rewrite to_u16_id by lia.
  pose proof (size_len_range n) as S2. destruct (rem - n <=? 0) eqn:E.
  - assert (r = []) by (destruct f; cbn [run_copies] in Hr'; rewrite E in Hr'; injection Hr' as <-; reflexivity). subst r. change (kcosts k []) with 0. lia.
  - specialize (IH _ _ _ Hr' ltac:(lia) ltac:(lia)). lia.
Qed.
Lemma make_run_kcost k b len start ops : 1 <= k <= 8 -> make_run_ops b len start = Ok ops -> 0 < len -> 16 * kcosts k ops <= 16 * (1 + k) + len.
Proof.
  intros Hk H Hl. unfold make_run_ops, RUN_LIMIT, COPY_LIMIT in H. destruct (len <? 372) eqn:E.
  - pose proof (run_chunks_kcost k b _ _ _ H Hl). lia.
  - cbv zeta in H. apply bind_ok in H as (r & Hr & H). assert (EO : ops = rep (Run b MAX_RUN_LEN) 3 ++ r) by congruence. clear H. subst ops. pose proof (run_copies_kcost k start ltac:(lia) _ _ _ _ Hr ltac:(lia) ltac:(lia)) as K. rewrite kcosts_app.
    change (kcosts k (rep (Run b MAX_RUN_LEN) 3)) with 6. lia.
Qed.
Lemma pass2_kcost k src trgt : 1 <= k <= 8 -> Forall is_byte trgt -> zlen trgt < 2 ^ 64 -> zlen src < 2 ^ 64 -> forall cs pos ops,
  Forall (cand_sound src trgt) cs -> disjoint pos cs -> 0 <= pos <= zlen trgt -> pass2 trgt cs pos = Ok ops ->
  16 * kcosts k ops <= 16 * ((2 + k) * zlen cs + 1) + 17 * (zlen trgt - pos) - 16 * total cs /\ total cs <= zlen trgt - pos.
Proof.
  intros Hk Hb Hlt Hls. induction cs as [|c cs IH]; intros pos ops Hs Hd Hp H.
  - change (zlen []) with 0. change (total []) with 0. split; [|lia]. cbn [pass2] in H. destruct (zlen trgt >? pos) eqn:E; [|injection H as <-; change (kcosts k []) with 0; lia].
    apply bind_ok in H as (b & Eb & H). rewrite slice_ok in Eb by lia. injection Eb as <-. pose proof (make_add_kcost k _ _ H) as K. rewrite zlen_sub in K by lia. specialize (K ltac:(lia)). lia.
  - apply Forall_cons_iff in Hs as [Hc Hs]. cbn [disjoint] in Hd. destruct Hd as [Hd1 Hd2]. cbn [pass2] in H. rewrite total_cons, zlen_cons.
    assert (HH := Hc). destruct HH as (C1 & C2 & C3 & C4). unfold c_end in *.
    destruct (c_len c <=? 0) eqn:E0.
    { destruct (IH pos ops Hs (disjoint_weaken pos (c_pos c + c_len c) cs ltac:(lia) Hd2) Hp H) as [K1 K2]. split; lia. }
    apply bind_ok in H as (adds & Ea & H).
    assert (A : 16 * kcosts k adds <= 17 * (c_pos c - pos) + 16).
    { destruct (c_pos c >? pos) eqn:E.
      - apply bind_ok in Ea as (b & Eb & Ea). rewrite slice_ok in Eb by lia. injection Eb as <-. pose proof (make_add_kcost k _ _ Ea) as K. rewrite zlen_sub in K by lia. apply K. lia.
      - injection Ea as <-. change (kcosts k []) with 0. lia. }
    replace (Z.max pos (c_pos c)) with (c_pos c) in H by lia. apply bind_ok in H as (u & _ & H).
    apply bind_ok in H as (these & Ht & H). apply bind_ok in H as (r & Hr & H). injection H as <-.
    assert (T : 16 * kcosts k these <= 16 * (1 + k) + c_len c).
    { destruct c as [s n p|s n p|b n p]; cbn [c_pos c_len] in *.
      - exact (copy_chunks_kcost k Dict ltac:(lia) _ _ _ _ Ht ltac:(lia)).
      - apply bind_ok in Ht as (u' & _ & Ht). exact (copy_chunks_kcost k Output ltac:(lia) _ _ _ _ Ht ltac:(lia)).
      - exact (make_run_kcost k _ _ _ _ Hk Ht ltac:(lia)). }
    destruct (IH (c_pos c + c_len c) r Hs Hd2 ltac:(lia) Hr) as [K1 K2]. rewrite !kcosts_app. split; lia.
Qed.
Lemma translate_kcost m k src trgt cs ops : 2 <= k <= 8 -> Forall is_byte trgt -> zlen trgt < 2 ^ 64 -> zlen src < 2 ^ 64 ->
  Forall (cand_sound src trgt) cs -> cands_ordered cs -> translate_inner_ops m trgt cs = Ok ops ->
  16 * kcosts k ops <= (4 * k + 9) * zlen trgt + 4 * (k + 2) * lack cs + 16.
Proof.
  intros Hk Hb Hl Hls Hs Ho H. unfold translate_inner_ops in H. pose proof (zlen_nonneg trgt). apply bind_ok in H as (r & Hr & H).
  assert (R : Forall (cand_sound src trgt) r /\ disjoint 0 r /\ 4 * zlen r <= total r + lack cs).
  { destruct cs as [|one rest]; [injection Hr as <-; split; [constructor|]; split; [exact I|]; vm_compute; discriminate|].
    apply Forall_cons_iff in Hs as [H1 H2]. destruct (pass1_ok m src trgt Hl rest one H1 H2 Ho) as (r' & A & B & C). rewrite A in Hr. injection Hr as <-. split; [exact B|]. split; [eapply disjoint_weaken; [|exact C]; apply H1|].
    rewrite lack_cons. pose proof (pass1_weight m src trgt Hl rest one r' H1 H2 Ho A). lia. }
  destruct R as (R1 & R2 & R3). destruct (pass2_kcost k src trgt ltac:(lia) Hb Hl Hls r 0 ops R1 R2 ltac:(lia) H) as [K1 K2]. pose proof (zlen_nonneg r). nia.
Qed.

(** ** The candidates of the encoder are of length 4 at least, but for one naive match with a tiny source *)
Lemma lack_clear : forall ops start ops', clear_ops ops start = Ok ops' -> lack ops' <= lack ops.
Proof.
  induction ops as [|c ops IH]; intros start ops' H; cbn [clear_ops] in H.
  - destruct (0 >=? start); [discriminate|]. injection H as <-. lia.
  - destruct (c_pos c >=? start); [|injection H as <-; lia]. specialize (IH _ _ H). rewrite lack_cons. unfold lack1. lia.
Qed.
Lemma estep_lack m src trgt lazy mx e e' : Forall is_byte trgt -> zlen trgt < 2 ^ 64 -> zlen src < 2 ^ 64 -> mx <= zlen trgt -> e_cur e + 4 < mx ->
  einv src trgt mx e -> estep m src trgt lazy mx e = Ok e' -> lack (e_ops e') <= lack (e_ops e).
Proof.
  intros Hb Hlt Hls Hmx Hc I H. unfold estep in H. destruct (e_st e) as [| |len|] eqn:Est.
  - unfold start_new_match in H. apply bind_ok in H as ([r b] & _ & H). apply bind_ok in H as (s & _ & H). apply bind_ok in H as (t & _ & H). injection H as <-. cbn [e_ops]. lia.
  - pose proof (iv_min _ _ _ _ I) as I2.
    pose proof (try_match_cases m src trgt mx e e' Hb Hlt Hls Hmx Hc Est I H) as (_ & _ & _ & _ & _ & [(_ & Hm & -> & _)|(_ & [(s & sp & pre & post & ops & _ & _ & _ & Hm & Hpre & Ho & -> & _)|(_ & [(start & len & -> & Hm & _)|(-> & _)])])]);
      rewrite ?lack_cons; unfold lack1; cbn [c_len]; try lia.
    assert (K : lack ops <= lack (e_ops e)) by (destruct (pre >? 0); [exact (lack_clear _ _ _ Ho)|injection Ho as <-; lia]). lia.
  - unfold found_match in H. apply bind_ok in H as (l & _ & H). destruct (_ && _ && _); injection H as <-; cbn [e_ops]; lia.
  - unfold move_forward in H. apply bind_ok in H as (r & _ & H). apply bind_ok in H as (s & _ & H). apply bind_ok in H as (t & _ & H). injection H as <-. cbn [e_ops]. lia.
Qed.
Lemma eloop_lack m src trgt lazy mx : Forall is_byte trgt -> zlen trgt < 2 ^ 64 -> zlen src < 2 ^ 64 -> mx <= zlen trgt -> forall fuel e e',
  einv src trgt mx e -> eloop fuel m src trgt lazy mx e = Ok e' -> lack (e_ops e') <= lack (e_ops e).
Proof.
  intros Hb Hlt Hls Hmx. induction fuel as [|k IH]; intros e e' I H; cbn [eloop] in H; destruct (e_cur e + 4 >=? mx) eqn:E; try discriminate;
    try (injection H as <-; lia).
  apply bind_ok in H as (e1 & H1 & H). pose proof (estep_lack m src trgt lazy mx e e1 Hb Hlt Hls Hmx ltac:(lia) I H1).
  pose proof (IH e1 e' (estep_inv m src trgt lazy mx e e1 Hb Hlt Hls Hmx ltac:(lia) I H1) H). lia.
Qed.
Lemma naive_lack t src trgt ops cur mx : naive_tests t src trgt = (ops, cur, mx) -> lack ops <= 4 /\ (mx < zlen trgt -> ops = []).
Proof.
  pose proof (zlen_nonneg src) as Hs. unfold naive_tests. set (none := ([], 0, zlen trgt)).
  assert (G0 : forall o c x, none = (o, c, x) -> lack o <= 4 /\ (x < zlen trgt -> o = [])).
  { intros o c x H. injection H as <- <- <-. split; [vm_compute; discriminate|reflexivity]. }
  destruct (zlen trgt >? zlen src) eqn:El; [|apply G0].
  assert (G1 : forall o c x, naive_start src trgt = Some (o, c, x) -> lack o <= 4 /\ (x < zlen trgt -> o = [])).
  { intros o c x H. unfold naive_start in H. destruct (starts_with trgt src) eqn:E; [|discriminate]. injection H as <- <- <-. rewrite lack_cons. change (lack []) with 0. unfold lack1. cbn [c_len]. split; lia. }
  assert (G2 : forall o c x, naive_end src trgt = Some (o, c, x) -> lack o <= 4 /\ (x < zlen trgt -> o = [])).
  { intros o c x H. unfold naive_end in H. destruct (ends_with trgt src) eqn:E; [|discriminate]. injection H as <- <- <-. split; [vm_compute; discriminate|reflexivity]. }
  destruct t as [[]|]; intro H; [..|now apply (G0 ops cur mx)].
  - destruct (naive_end src trgt) as [[[o c] x]|]; [injection H as -> -> ->; now apply (G2 ops cur mx)|now apply (G0 ops cur mx)].
  - destruct (naive_start src trgt) as [[[o c] x]|]; [injection H as -> -> ->; now apply (G1 ops cur mx)|now apply (G0 ops cur mx)].
  - destruct (naive_end src trgt) as [[[o c] x]|]; cbn [or_else] in H; [injection H as -> -> ->; now apply (G2 ops cur mx)|].
    destruct (naive_start src trgt) as [[[o c] x]|]; [injection H as -> -> ->; now apply (G1 ops cur mx)|now apply (G0 ops cur mx)].
  - destruct (naive_start src trgt) as [[[o c] x]|]; cbn [or_else] in H; [injection H as -> -> ->; now apply (G1 ops cur mx)|].
    destruct (naive_end src trgt) as [[[o c] x]|]; [injection H as -> -> ->; now apply (G2 ops cur mx)|now apply (G0 ops cur mx)].
Qed.
Lemma encode_inner_lack m c src trgt cs : Forall is_byte trgt -> zlen trgt < 2 ^ 64 -> zlen src < 2 ^ 64 -> encode_inner m c src trgt = Ok cs -> lack cs <= 4.
Proof.
  intros Hb Hlt Hls H.
  assert (G0 : forall cs, @Ok (list cand) [] = Ok cs -> lack cs <= 4) by (intros cs0 E; injection E as <-; vm_compute; discriminate).
  unfold encode_inner in H.
  assert (H' : (if (zlen src =? 0) && match ic_trgt c with None => true | Some _ => false end then Ok [] else
      if zlen trgt =? 0 then Ok [] else
      let '(ops, cur, mx) := naive_tests (ic_naive c) src trgt in
      do tm <- match ic_trgt c with None => Ok None | Some tc => do t <- trgt_build m tc trgt cur; Ok (Some t) end;
      do sm <- match ic_src c with None => Ok None | Some sc => do s <- src_build m sc src cur trgt; Ok (Some s) end;
      let lazy := match ic_lazy c with Some n => n | None => 90 end in
      let e := mkE ops cur 4 0 0 StartNewMatch sm tm in
      do e <- eloop (4 * length trgt + 4) m src trgt lazy mx e;
      do _ <- assert_ (e_cur e <=? zlen trgt);
      let ops := rev (e_ops e) in
      Ok (if mx <? zlen trgt then ops ++ [MSrc 0 (zlen src) mx] else ops)) = Ok cs \/ @Ok (list cand) [] = Ok cs).
  { destruct (ic_src c), (ic_trgt c); auto. }
  clear H. destruct H' as [H|H]; [|now apply G0].
  destruct (_ && _); [now apply G0|]. destruct (zlen trgt =? 0); [now apply G0|].
  destruct (naive_tests (ic_naive c) src trgt) as [[ops cur] mx] eqn:En.
  destruct (naive_tests_ok src trgt _ _ _ _ En) as (N1 & N2 & N3 & N4 & N5 & N6 & _ & N7). destruct (naive_lack _ _ _ _ _ _ En) as [L1 L2].
  apply bind_ok in H as (tm & Htm & H). apply bind_ok in H as (sm & Hsm & H). cbv zeta in H.
  apply bind_ok in H as (e & He & H). apply bind_ok in H as (u & _ & H).
  assert (I0 : einv src trgt mx (mkE ops cur 4 0 0 StartNewMatch sm tm)).
  { constructor; cbn [e_cur e_min e_byte e_ops e_st e_src e_trgt is_start]; auto; try lia.
    - unfold is_byte. lia.
    - destruct ops; [exact I|]. cbn in *. lia.
    - destruct ops; [exact I|]. cbn in *. lia.
    - destruct (ic_src c) as [sc|]; [|injection Hsm as <-; exact I]. apply bind_ok in Hsm as (s & Hs & Hsm). injection Hsm as <-.
      eapply src_build_rel, Hs. lia.
    - destruct (ic_trgt c) as [tc|]; [|injection Htm as <-; exact I]. apply bind_ok in Htm as (t & Ht & Htm). injection Htm as <-.
      eapply trgt_build_rel, Ht. lia. }
  pose proof (eloop_lack m src trgt _ mx Hb Hlt Hls N3 _ _ _ I0 He) as K. cbn [e_ops] in K. injection H as <-. destruct (mx <? zlen trgt) eqn:E.
  - rewrite (L2 ltac:(lia)) in K. change (lack []) with 0 in K. rewrite lack_app, lack_rev, lack_cons. change (lack []) with 0. unfold lack1. cbn [c_len]. pose proof (zlen_nonneg src). lia.
  - rewrite lack_rev. lia.
Qed.

(** ** From the cost of operations to the size of the patch *)
Lemma op_cost_k k d o x : 1 <= k -> (match x with Copy _ a _ => 0 <= a < 2 ^ (7 * k - 1) | _ => True end) -> 0 <= d < 2 ^ (7 * k - 1) -> 0 <= o < 2 ^ (7 * k - 1) -> op_cost d o x <= kcost k x.
Proof.
  intros Hk Hx Hd Ho. unfold op_cost, kcost. destruct x as [bs|b n|s a n]; [lia|lia|].
  assert (E : 2 ^ (7 * k) = 2 * 2 ^ (7 * k - 1)) by (rewrite <- Z.pow_succ_r by lia; f_equal; lia).
  assert (Hz : 0 <= zigzag (a - last_addr d o s) < 2 ^ (7 * k)) by (rewrite E; unfold zigzag; destruct s; cbn [last_addr]; [destruct (0 <=? a - d) eqn:Q|destruct (0 <=? a - o) eqn:Q]; lia).
  pose proof (number_len_le _ k ltac:(apply Hz) Hk ltac:(apply Hz)). lia.
Qed.
Lemma ops_cost_k k : 1 <= k -> forall ops d o, addrs_lt (2 ^ (7 * k - 1)) ops -> 0 <= d < 2 ^ (7 * k - 1) -> 0 <= o < 2 ^ (7 * k - 1) -> ops_cost d o ops <= kcosts k ops.
Proof.
  intro Hk. induction ops as [|x ops IH]; intros d o Ha Hd Ho; [cbn; lia|]. apply Forall_cons_iff in Ha as [Hx Ha]. cbn [ops_cost]. rewrite kcosts_cons. pose proof (op_cost_k k d o x Hk Hx Hd Ho).
  assert (N : 0 <= next_d d x < 2 ^ (7 * k - 1) /\ 0 <= next_o o x < 2 ^ (7 * k - 1)) by (destruct x as [bs|c n|[|] a n]; cbn [next_d next_o]; auto). destruct N as [N1 N2]. specialize (IH _ _ Ha N1 N2). lia.
Qed.
Lemma sections_cost_k k f : 1 <= k -> forall secs, Forall (fun ops => Forall op_good ops /\ addrs_lt (2 ^ (7 * k - 1)) ops /\ ops_len ops <= max_win_size) secs ->
  sections_cost f secs <= 13 * zlen secs + kcosts k (concat secs).
Proof.
  intro Hk. induction secs as [|ops secs IH]; intro H; [cbn; lia|]. apply Forall_cons_iff in H as [(Hg & Ha & Hm) H]. specialize (IH H). change (sections_cost f (ops :: secs)) with (section_cost f ops + sections_cost f secs). cbn [concat]. rewrite kcosts_app, zlen_cons. unfold max_win_size in Hm.
  pose proof (good_ok _ Hg) as Hok. pose proof (good_zlen _ Hg). pose proof (adds_len_bounds ops Hok). assert (Hp : 0 < 2 ^ (7 * k - 1)) by (apply Z.pow_pos_nonneg; lia).
  pose proof (ops_cost_k k Hk ops 0 0 Ha ltac:(lia) ltac:(lia)). pose proof (header_cost_range f ops ltac:(lia) ltac:(lia) ltac:(lia)). unfold section_cost. lia.
Qed.
