(** Properties C36, C37, C60: from candidate matches to operations. *)
From Verif Require Import Base Spec SpecEnc MCommon MOpMaker PBase PDecoder PWriter POpMaker.
Ltac Zify.zify_post_hook ::= idtac.

(** C36. From any list of true candidate matches with non-decreasing starts and ends, however they overlap, operation
    making hits no assertion, every operation is non-empty and within the limits, and performing them yields exactly the
    target (and needs no dictionary copy if there is no dictionary). *)
Theorem C36_candidates_become_exact_tiling : forall m src trgt cs, Forall is_byte trgt -> zlen trgt < 2 ^ 64 -> zlen src < 2 ^ 64 ->
  Forall (cand_sound src trgt) cs -> cands_ordered cs ->
  exists ops, translate_inner_ops m trgt cs = Ok ops /\ Forall op_good ops /\ run_ops src [] ops = Some trgt /\
    (src = [] -> existsb is_dict_copy ops = false).
Proof.
  intros m src trgt cs Hb Ht Hs Hc Ho.
  destruct (translate_ok m src trgt cs Hb Ht Hs Hc Ho) as (ops & E & [Hg Hr] & Hd).
  exists ops. split; [exact E|]. split; [exact Hg|]. split; [exact Hr|exact Hd].
Qed.
(** Three overlapping matches (source, earlier target bytes, run), a gap, and a match that is dropped. *)
Definition ex36_src := [1; 2; 3; 4; 5; 6; 7; 8; 9; 10; 11; 12; 13; 14; 15; 16].
Definition ex36_trgt := [1; 2; 3; 4; 5; 6; 7; 8; 9; 10; 11; 12; 7; 7; 7; 7; 7; 7; 5; 6; 7; 8; 9; 10; 11; 12; 7; 7; 7; 0; 0].
Definition ex36_cands := [MSrc 0 12 0; MSrc 5 7 5; MRun 7 6 12; MSrc 4 8 18; MTrgt 4 11 18; MRun 7 3 26].
Ltac check_cands := repeat (apply Forall_cons; [unfold cand_sound, c_end, is_byte; cbn; repeat split; solve [lia | reflexivity | vm_compute; discriminate]|]); apply Forall_nil.
Example C36_example : Forall is_byte ex36_trgt /\ Forall (cand_sound ex36_src ex36_trgt) ex36_cands /\ cands_ordered ex36_cands /\
  translate_inner_ops Debug ex36_trgt ex36_cands = Ok [Copy Dict 0 12; Run 7 6; Copy Output 4 11; Add [0; 0]].
Proof.
  split; [|split; [|split]].
  - repeat (constructor; [unfold is_byte; lia|]). constructor.
  - check_cands.
  - cbn. unfold c_end. cbn. lia.
  - reflexivity.
Qed.
(** Overlaps are split in the middle when both matches are long. *)
Example C36_example_split : let src := rep 1 20 ++ rep 2 20 in let trgt := rep 1 20 ++ rep 2 20 in
  Forall (cand_sound src trgt) [MSrc 0 30 0; MSrc 20 20 20] /\ cands_ordered [MSrc 0 30 0; MSrc 20 20 20] /\
  translate_inner_ops Debug trgt [MSrc 0 30 0; MSrc 20 20 20] = Ok [Copy Dict 0 25; Copy Dict 25 15].
Proof. cbv zeta. split; [check_cands|]. split; [cbn; unfold c_end; cbn; lia|reflexivity]. Qed.

(** C37. Literals, copies and runs of any length: the operations are non-empty, within the limits, and append exactly
    those bytes, whatever was produced before. *)
Theorem C37_chunking_exact : forall dict out,
  (forall bytes, Forall is_byte bytes -> exists ops, make_add_ops bytes = Ok ops /\ Forall op_good ops /\
     run_ops dict out ops = Some (out ++ bytes)) /\
  (forall start len, 0 <= start -> 0 <= len -> start + len <= zlen dict -> start + len < 2 ^ 64 ->
     exists ops, make_copy_ops Dict start len = Ok ops /\ Forall op_good ops /\
     run_ops dict out ops = Some (out ++ sub dict start len)) /\
  (forall start len, 0 <= start -> 0 <= len -> start + len <= zlen out -> start + len < 2 ^ 64 ->
     exists ops, make_copy_ops Output start len = Ok ops /\ Forall op_good ops /\
     run_ops dict out ops = Some (out ++ sub out start len)) /\
  (forall byte len, is_byte byte -> 0 <= len -> zlen out + len < 2 ^ 64 ->
     exists ops, make_run_ops byte len (zlen out) = Ok ops /\ Forall op_good ops /\
     run_ops dict out ops = Some (out ++ rep byte len)).
Proof.
  intros d out. split; [|split; [|split]].
  - intros b Hb. destruct (make_add_ops_ok d b out Hb) as (ops & E & [G R] & _). eauto.
  - intros s n H1 H2 H3 H4. destruct (make_copy_ops_ok d Dict s n out H1 H2 H3 H4) as (ops & E & [G R] & _). eauto.
  - intros s n H1 H2 H3 H4. destruct (make_copy_ops_ok d Output s n out H1 H2 H3 H4) as (ops & E & [G R] & _). eauto.
  - intros b n H1 H2 H3. destruct (make_run_ops_ok d b n out H1 H2 H3) as (ops & E & [G R] & _). eauto.
Qed.
(** The quotient rounded up. *)
Definition ceil_div (n d : Z) : Z := (n + d - 1) / d.
Lemma ceil_step n d c : 0 < d -> 1 <= c <= n -> c <= d -> c = d \/ c = n -> 1 + ceil_div (n - c) d = ceil_div n d.
Proof.
  intros Hd Hc Hcd [-> | ->]; unfold ceil_div.
  - replace (n + d - 1) with (n - d + d - 1 + 1 * d) by lia. rewrite Z.div_add by lia. lia.
  - replace (n - n + d - 1) with (d - 1) by lia. rewrite (Z.div_small (d - 1)) by lia. apply (Z.div_unique _ _ _ (n - 1)); lia.
Qed.
Lemma ceil_0 d : 0 < d -> ceil_div 0 d = 0.
Proof. intro H. unfold ceil_div. apply Z.div_small. lia. Qed.
Lemma add_chunks_count : forall fuel bytes ops, add_chunks fuel bytes = Ok ops -> zlen ops = ceil_div (zlen bytes) 65535.
Proof.
  induction fuel as [|k IH]; intros bytes ops H; cbn [add_chunks] in H; (destruct (Z.eqb_spec (zlen bytes) 0) as [E|E]; [injection H as <-; rewrite E; symmetry; apply ceil_0; lia|]); [discriminate|].
  apply bind_ok in H as (r & Hr & H). injection H as <-. apply IH in Hr. unfold MAX_INST_SIZE in *. pose proof (zlen_nonneg bytes). rewrite zlen_cons, Hr, zlen_drop by lia. apply ceil_step; lia.
Qed.
Lemma copy_chunks_ceil s : forall fuel addr rem ops, 0 <= rem -> copy_chunks fuel s addr rem = Ok ops -> zlen ops = ceil_div rem 65535.
Proof.
  induction fuel as [|k IH]; intros addr rem ops Hn H; cbn [copy_chunks] in H; (destruct (Z.leb_spec rem 0) as [E|E]; [injection H as <-; assert (rem = 0) as -> by lia; symmetry; apply ceil_0; lia|]); [discriminate|].
  apply bind_ok in H as (r & Hr & H). injection H as <-. unfold MAX_INST_SIZE in *. apply IH in Hr; [|lia]. rewrite zlen_cons, Hr. apply ceil_step; lia.
Qed.
Lemma run_chunks_ceil b : forall fuel rem ops, 0 <= rem -> run_chunks fuel b rem = Ok ops -> zlen ops = ceil_div rem 62.
Proof.
  induction fuel as [|k IH]; intros rem ops Hn H; cbn [run_chunks] in H; (destruct (Z.leb_spec rem 0) as [E|E]; [injection H as <-; assert (rem = 0) as -> by lia; symmetry; apply ceil_0; lia|]); [discriminate|].
  apply bind_ok in H as (r & Hr & H). injection H as <-. unfold MAX_RUN_LEN in *. apply IH in Hr; [|lia]. rewrite zlen_cons, Hr. apply ceil_step; lia.
Qed.
Lemma ceil_mono a b d : 0 < d -> a <= b -> ceil_div a d <= ceil_div b d.
Proof. intros Hd H. unfold ceil_div. apply Z.div_le_mono; lia. Qed.
Lemma ceil_pos a d : 0 < d -> 0 < a -> 1 <= ceil_div a d.
Proof. intros Hd H. unfold ceil_div. apply Z.div_le_lower_bound; lia. Qed.
(** A copy doubles what can be copied, until copies have their full length. *)
Lemma run_copies_count addr : forall fuel j mx rem ops, 0 <= rem -> 0 <= j <= 9 -> 186 * 2 ^ j <= mx -> run_copies fuel addr mx rem = Ok ops -> zlen ops <= 9 - j + ceil_div rem 65535.
Proof.
  induction fuel as [|k IH]; intros j mx rem ops Hn Hj Hm H; cbn [run_copies] in H; (destruct (Z.leb_spec rem 0) as [E|E]; [injection H as <-; assert (rem = 0) as -> by lia; rewrite ceil_0 by lia; rewrite (@zlen_nil op); lia|]); [discriminate|].
  apply bind_ok in H as (r & Hr & H). injection H as <-. unfold MAX_INST_SIZE in *. rewrite zlen_cons. assert (0 < 2 ^ j) by (apply Z.pow_pos_nonneg; lia).
  destruct (Z.le_gt_cases 65535 mx) as [Hx|Hx].
  - apply (IH j) in Hr; [|lia..]. pose proof (ceil_step rem 65535 (Z.min (Z.min mx rem) 65535) ltac:(lia) ltac:(lia) ltac:(lia) ltac:(lia)). lia.
  - destruct (Z.le_gt_cases rem mx) as [Hy|Hy].
    + replace (rem - Z.min (Z.min mx rem) 65535) with 0 in Hr by lia.
      assert (r = []) as ->. { destruct k; cbn [run_copies] in Hr; change (0 <=? 0) with true in Hr; cbv iota in Hr; injection Hr as <-; reflexivity. }
      pose proof (ceil_pos rem 65535 ltac:(lia) ltac:(lia)). rewrite (@zlen_nil op). lia.
    + assert (Hj9 : j < 9). { destruct (Z.eq_dec j 9) as [->|]; [|lia]. change (186 * 2 ^ 9) with 95232 in Hm. lia. }
      apply (IH (j + 1)) in Hr; [|lia|lia|rewrite Z.pow_add_r by lia; change (2 ^ 1) with 2; lia]. pose proof (ceil_mono (rem - Z.min (Z.min mx rem) 65535) rem 65535 ltac:(lia) ltac:(lia)). lia.
Qed.
(** As few operations as the format allows for literals and copies; a long run costs at most twelve more than a copy of its length. *)
Theorem C37_few_operations :
  (forall bytes ops, make_add_ops bytes = Ok ops -> zlen ops = ceil_div (zlen bytes) 65535) /\
  (forall s start len ops, 0 <= len -> make_copy_ops s start len = Ok ops -> zlen ops = ceil_div len 65535) /\
  (forall ops, Forall op_ok ops -> ceil_div (ops_len ops) 65535 <= zlen ops) /\
  (forall byte len start ops, 0 <= len -> make_run_ops byte len start = Ok ops ->
     (len < 372 -> zlen ops = ceil_div len 62) /\ (372 <= len -> zlen ops <= 12 + ceil_div len 65535)).
Proof.
  split; [|split; [|split]].
  - intros bytes ops H. unfold make_add_ops in H. destruct bytes as [|b [|c r]]; [apply (add_chunks_count _ _ _ H)|injection H as <-; reflexivity|apply (add_chunks_count _ _ _ H)].
  - intros s start len ops Hl H. exact (copy_chunks_ceil _ _ _ _ _ Hl H).
  - intros ops H. apply Z.lt_succ_r. unfold ceil_div. apply Z.div_lt_upper_bound; [lia|]. assert (ops_len ops <= 65535 * zlen ops); [|lia].
    induction H as [|o ops [Ho1 Ho2] _ IH]; [cbn; lia|]. change (ops_len (o :: ops)) with (op_len o + ops_len ops). rewrite zlen_cons. assert (op_len o <= 65535) by (destruct o; cbn [op_len op_legal] in *; lia). lia.
  - intros byte len start ops Hl H. unfold make_run_ops, RUN_LIMIT, COPY_LIMIT in H. destruct (Z.ltb_spec len 372) as [E|E]; (split; intro E'; [|]); try lia.
    + exact (run_chunks_ceil _ _ _ _ Hl H).
    + apply bind_ok in H as (r & Hr & H). apply (run_copies_count _ _ 0) in Hr; [|lia|lia|change (186 * 2 ^ 0) with 186; lia]. apply (f_equal (fun x => match x with Ok l => zlen l | _ => 0 end)) in H. rewrite <- H, zlen_app.
      change (zlen (rep (Run byte MAX_RUN_LEN) 3)) with 3. pose proof (ceil_mono (len - 186) len 65535 ltac:(lia) ltac:(lia)). lia.
Qed.
Example C37_few_example : exists a, make_run_ops 7 100000 3 = Ok a /\ zlen a = 13 /\ ceil_div 100000 65535 = 2 /\ (exists b, make_copy_ops Dict 1 131071 = Ok b /\ zlen b = 3).
Proof. eexists. split; [vm_compute; reflexivity|]. split; [reflexivity|]. split; [reflexivity|]. eexists. split; [vm_compute; reflexivity|reflexivity]. Qed.
Example C37_example : make_run_ops 9 1000 5 =
    Ok [Run 9 62; Run 9 62; Run 9 62; Copy Output 5 186; Copy Output 5 372; Copy Output 5 256] /\
  make_copy_ops Dict 3 70000 = Ok [Copy Dict 3 65535; Copy Dict 65538 4465] /\ make_add_ops [8] = Ok [Run 8 1].
Proof. split; [reflexivity|]. split; reflexivity. Qed.

Lemma add_chunks_adds : forall fuel bytes ops, (length bytes <= fuel)%nat -> add_chunks fuel bytes = Ok ops -> adds_len ops = zlen bytes.
Proof.
  induction fuel as [|k IH]; intros bytes ops Hf H; cbn [add_chunks] in H.
  - destruct bytes; [|cbn in Hf; lia]. cbn in H. injection H as <-. reflexivity.
  - destruct (zlen bytes =? 0) eqn:E; [injection H as <-; cbn; lia|].
    assert (Hpos : 0 < zlen bytes) by (pose proof (zlen_nonneg bytes); lia). unfold MAX_INST_SIZE in H.
    set (n := Z.min (zlen bytes) 65535) in *. assert (1 <= n <= zlen bytes) by (unfold n; lia).
    apply bind_ok in H as (r & Hr & H). injection H as <-.
    apply IH in Hr; [|assert (Hd := zlen_drop n bytes ltac:(lia)); unfold zlen in *; lia].
    unfold adds_len in *. cbn [fold_right add_len]. rewrite Hr, zlen_take, zlen_drop by lia. lia.
Qed.
Lemma make_add_ops_adds bytes ops : make_add_ops bytes = Ok ops -> adds_len ops <= zlen bytes.
Proof.
  unfold make_add_ops. destruct bytes as [|b [|c r]]; intro H.
  - injection H as <-. cbn. lia.
  - injection H as <-. cbn. lia.
  - rewrite (add_chunks_adds _ _ _ (le_n _) H). lia.
Qed.
Lemma adds_len_app a b : adds_len (a ++ b) = adds_len a + adds_len b.
Proof. unfold adds_len. induction a as [|x a IH]; [reflexivity|]. cbn [app fold_right]. rewrite IH. lia. Qed.
Lemma no_add_adds ops : forallb (fun o => negb (is_add o)) ops = true -> adds_len ops = 0.
Proof. unfold adds_len. induction ops as [|x ops IH]; [reflexivity|]. cbn. rewrite andb_true_iff. intros [H1 H2]. rewrite IH by exact H2. destruct x; cbn in *; [discriminate|lia|lia]. Qed.
Lemma copy_chunks_no_add s : forall fuel a n ops, copy_chunks fuel s a n = Ok ops -> adds_len ops = 0.
Proof.
  induction fuel as [|k IH]; intros a n ops H; cbn [copy_chunks] in H; destruct (n <=? 0); try discriminate; try (injection H as <-; reflexivity).
  apply bind_ok in H as (r & Hr & H). injection H as <-. apply IH in Hr. unfold adds_len in *. cbn. lia.
Qed.
Lemma run_chunks_no_add b : forall fuel n ops, run_chunks fuel b n = Ok ops -> adds_len ops = 0.
Proof.
  induction fuel as [|k IH]; intros n ops H; cbn [run_chunks] in H; destruct (n <=? 0); try discriminate; try (injection H as <-; reflexivity).
  apply bind_ok in H as (r & Hr & H). injection H as <-. apply IH in Hr. unfold adds_len in *. cbn. lia.
Qed.
Lemma run_copies_no_add a : forall fuel mx n ops, run_copies fuel a mx n = Ok ops -> adds_len ops = 0.
Proof.
  induction fuel as [|k IH]; intros mx n ops H; cbn [run_copies] in H; destruct (n <=? 0); try discriminate; try (injection H as <-; reflexivity).
  apply bind_ok in H as (r & Hr & H). injection H as <-. apply IH in Hr. unfold adds_len in *. cbn. lia.
Qed.
Lemma make_run_no_add b n p ops : make_run_ops b n p = Ok ops -> adds_len ops = 0.
Proof.
  unfold make_run_ops. destruct (n <? RUN_LIMIT); intro H; [now apply run_chunks_no_add in H|].
  apply bind_ok in H as (r & Hr & H). apply (f_equal (fun x => match x with Ok l => adds_len l | _ => 0 end)) in H.
  rewrite <- H, adds_len_app, (run_copies_no_add _ _ _ _ _ Hr). reflexivity.
Qed.

(** The candidates do not overlap. *)
Fixpoint cands_disjoint (l : list cand) : Prop :=
  match l with
  | a :: ((b :: _) as r) => c_end a <= c_pos b /\ cands_disjoint r
  | _ => True
  end.
(** Bytes of the target covered by (disjoint) candidates. *)
Definition covered (l : list cand) : Z := fold_right (fun c s => c_len c + s) 0 l.

Lemma pass1_disjoint m src trgt : forall rest one, Forall (cand_sound src trgt) (one :: rest) -> cands_disjoint (one :: rest) ->
  pass1 m one rest = Ok (one :: rest).
Proof.
  induction rest as [|two rest IH]; intros one Hs Hd; cbn [pass1]; [reflexivity|].
  destruct Hd as [H1 H2]. apply Forall_cons_iff in Hs as [Ho Hs]. destruct Ho as (O1 & O2 & _). unfold c_end in *.
  unfold assert_ at 1. replace (c_pos one <=? c_pos two) with true by lia. cbn [bind].
  replace (c_pos one + c_len one <=? c_pos two) with true by lia. rewrite (IH two Hs H2). reflexivity.
Qed.
Lemma pass2_literals src trgt : forall cs pos ops, Forall (cand_sound src trgt) cs -> cands_disjoint cs -> 0 <= pos ->
  match cs with c :: _ => pos <= c_pos c | [] => True end -> pos <= zlen trgt ->
  pass2 trgt cs pos = Ok ops -> adds_len ops <= zlen trgt - pos - covered cs.
Proof.
  induction cs as [|c cs IH]; intros pos ops Hs Hd Hp Hc Hle H; cbn [pass2] in H.
  - cbn [covered fold_right]. destruct (zlen trgt >? pos) eqn:E.
    + apply bind_ok in H as (b & Hb & H). apply slice_inv in Hb as (_ & _ & ->). apply make_add_ops_adds in H.
      rewrite zlen_sub in H by lia. lia.
    + injection H as <-. cbn. lia.
  - apply Forall_cons_iff in Hs as [Hs0 Hs]. destruct Hs0 as (S1 & S2 & S3 & _). unfold c_end in *.
    change (covered (c :: cs)) with (c_len c + covered cs).
    assert (Hd' : cands_disjoint cs) by (destruct cs; [exact I|apply Hd]).
    assert (Hc' : forall p, p <= c_end c -> match cs with c' :: _ => p <= c_pos c' | [] => True end).
    { intros p Hpe. destruct cs; [exact I|]. destruct Hd as [G _]. lia. }
    destruct (c_len c <=? 0) eqn:E0.
    { apply IH in H; auto; try lia. apply Hc'. unfold c_end. lia. }
    apply bind_ok in H as (adds & Ha & H).
    assert (A : adds_len adds <= c_pos c - pos).
    { destruct (c_pos c >? pos) eqn:E.
      - apply bind_ok in Ha as (b & Hb & Ha). apply slice_inv in Hb as (_ & _ & ->). apply make_add_ops_adds in Ha.
        rewrite zlen_sub in Ha by lia. lia.
      - injection Ha as <-. cbn. lia. }
    replace (Z.max pos (c_pos c)) with (c_pos c) in H by lia. apply bind_ok in H as (u & _ & H).
    apply bind_ok in H as (these & Ht & H). apply bind_ok in H as (r & Hr & H). injection H as <-.
    apply IH in Hr; auto; try lia; [|apply Hc'; unfold c_end; lia].
    assert (T : adds_len these = 0).
    { destruct c as [s n p|s n p|b n p].
      - now apply copy_chunks_no_add in Ht.
      - apply bind_ok in Ht as (u' & _ & Ht). now apply copy_chunks_no_add in Ht.
      - now apply make_run_no_add in Ht. }
    rewrite !adds_len_app, T. lia.
Qed.

(** C60. Matches that do not overlap are all used: the literals of the operations cover at most the target bytes outside
    the candidate matches. *)
Theorem C60_disjoint_candidates_all_used : forall m src trgt cs, Forall is_byte trgt -> zlen trgt < 2 ^ 64 -> zlen src < 2 ^ 64 ->
  Forall (cand_sound src trgt) cs -> cands_disjoint cs ->
  exists ops, translate_inner_ops m trgt cs = Ok ops /\ run_ops src [] ops = Some trgt /\
    adds_len ops <= zlen trgt - covered cs.
Proof.
  intros m src trgt cs Hb Ht Hs Hc Hd.
  assert (Ho : cands_ordered cs).
  { clear - Hc Hd. induction cs as [|a [|b cs] IH]; [exact I|exact I|]. apply Forall_cons_iff in Hc as [(A1 & A2 & _) Hc].
    destruct Hd as [H1 H2]. assert (Hb := Hc). apply Forall_cons_iff in Hb as [(B1 & B2 & _) _]. unfold c_end in *.
    split; [lia|]. split; [unfold c_end; lia|]. now apply IH. }
  destruct (translate_ok m src trgt cs Hb Ht Hs Hc Ho) as (ops & E & [Hg Hr] & _).
  exists ops. split; [exact E|]. split; [exact Hr|]. unfold translate_inner_ops in E.
  apply bind_ok in E as (cs' & E1 & E). assert (cs' = cs).
  { destruct cs as [|one rest]; [congruence|]. rewrite (pass1_disjoint m src trgt rest one Hc Hd) in E1. congruence. }
  subst cs'. rewrite <- (Z.sub_0_r (zlen trgt)). apply (pass2_literals src trgt cs 0 ops Hc Hd); auto; try lia.
  - destruct cs as [|c cs]; [exact I|]. apply Forall_cons_iff in Hc as [(A1 & _) _]. exact A1.
  - pose proof (zlen_nonneg trgt). lia.
Qed.
Definition ex60_cands := [MSrc 0 12 0; MRun 7 6 12; MTrgt 4 8 18].
Example C60_example : cands_disjoint ex60_cands /\ Forall (cand_sound ex36_src ex36_trgt) ex60_cands /\ covered ex60_cands = 26 /\
  translate_inner_ops Debug ex36_trgt ex60_cands = Ok [Copy Dict 0 12; Run 7 6; Copy Output 4 8; Add [7; 7; 7; 0; 0]].
Proof.
  split; [cbn; unfold c_end; cbn; lia|]. split; [check_cands|]. split; reflexivity.
Qed.

Print Assumptions C36_candidates_become_exact_tiling.
Print Assumptions C37_chunking_exact.
Print Assumptions C37_few_operations.
Print Assumptions C60_disjoint_candidates_all_used.
