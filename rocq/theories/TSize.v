(** Properties C90 (as few sections as possible) and C91 (size of a patch). *)
From Verif Require Import Base Spec SpecEnc MCommon MWriter MReader MDecoder MOpMaker MTrgtMatcher MSrcMatcher MEncInner MEncode
  SpecApi PBase PCommon PStream PSection PWriter PDecoder PPatch POpMaker PEncInner PEncode TEncode TTrunc TOff.
Ltac Zify.zify_post_hook ::= idtac.
Arguments Z.add : simpl never.
Arguments Z.sub : simpl never.
Arguments Z.mul : simpl never.
Arguments Z.pow : simpl never.
Arguments Z.div : simpl never.

(** ** C90 *)
Definition fits (max : Z) (part : list op) : Prop := ops_len part <= max.
Lemma drop_empties : forall (ps : list (list op)) x r, concat ps = x :: r ->
  exists p' qs, concat (p' :: qs) = r /\ (length ((x :: p') :: qs) <= length ps)%nat /\ (forall P : list op -> Prop, Forall P ps -> P (x :: p') /\ Forall P qs).
Proof.
  induction ps as [|p ps IH]; intros x r H; [discriminate H|]. destruct p as [|y p'].
  - destruct (IH x r H) as (p' & qs & Hc & Hl & HP). exists p', qs. split; [exact Hc|]. split; [cbn [length] in *; lia|]. intros P HF. inversion HF; subst. auto.
  - cbn [concat app] in H. injection H as -> H. exists p', ps. split; [exact H|]. split; [lia|]. intros P HF. inversion HF; subst. auto.
Qed.
Definition count (max : Z) (ops cur : list op) (osize nadd : Z) : nat := length (make_sections_loop max ops cur osize nadd).
Lemma greedy max : forall ops cur osize nadd, Forall op_ok ops ->
  (forall c p ps, osize <= c -> c + ops_len p <= max -> Forall (fits max) ps -> concat (p :: ps) = ops -> (count max ops cur osize nadd <= length (p :: ps))%nat) /\
  (forall c p ps, 0 <= c -> c + ops_len p <= max -> Forall (fits max) ps -> concat (p :: ps) = ops -> (count max ops cur osize nadd <= S (length (p :: ps)))%nat).
Proof.
  induction ops as [|x r IH]; intros cur osize nadd Hok.
  - split; intros; unfold count; cbn [make_sections_loop length]; lia.
  - inversion Hok as [|? ? Hx Hr]; subst. destruct (oal_op_ok x Hx) as [Hoal Hl].
    assert (B : forall c p ps, 0 <= c -> c + ops_len p <= max -> Forall (fits max) ps -> concat (p :: ps) = x :: r -> (count max (x :: r) cur osize nadd <= S (length (p :: ps)))%nat).
    { intros c p ps Hc Hp Hps Hcat. destruct (drop_empties (p :: ps) x r Hcat) as (p' & qs & Hcat' & Hlen & HP).
      destruct (HP (fits max)) as [Hq Hqs]; [constructor; [unfold fits; lia|exact Hps]|]. unfold fits in Hq. rewrite ops_len_cons in Hq.
      unfold count. cbn [make_sections_loop]. rewrite Hoal. destruct (osize + op_len x >? max) eqn:E.
      - cbn [length]. destruct (IH [x] (op_len x) (if is_add x then op_len x else 0) Hr) as [A _]. specialize (A (op_len x) p' qs ltac:(lia) Hq Hqs Hcat'). unfold count in A. cbn [length] in *. lia.
      - destruct (IH (cur ++ [x]) (osize + op_len x) (if is_add x then nadd + op_len x else nadd) Hr) as [_ B]. specialize (B (op_len x) p' qs ltac:(lia) Hq Hqs Hcat'). unfold count in B. cbn [length] in *. lia. }
    split; [|exact B]. intros c p ps Hc Hp Hps Hcat. destruct p as [|y p'].
    + destruct ps as [|q ps]; [discriminate Hcat|]. inversion Hps; subst. apply (B 0 q ps); [lia|assumption|assumption|exact Hcat].
    + cbn [concat app] in Hcat. injection Hcat as -> Hcat. rewrite ops_len_cons in Hp. assert (Hpn : 0 <= ops_len p').
      { apply ops_len_nonneg. apply Forall_forall. intros z Hz. rewrite Forall_forall in Hr. apply Hr. rewrite <- Hcat. cbn [concat]. apply in_or_app. left. exact Hz. }
      unfold count. cbn [make_sections_loop]. rewrite Hoal. replace (osize + op_len x >? max) with false by lia.
      destruct (IH (cur ++ [x]) (osize + op_len x) (if is_add x then nadd + op_len x else nadd) Hr) as [A _]. apply (A (c + op_len x) p' ps); [lia|lia|assumption|exact Hcat].
Qed.
(** C90. make_sections makes as few sections as possible: however the operations are split, in order, into sections of at most the
    section size in use, there are at least as many. *)
Theorem C90_fewest_sections : forall ops n parts, Forall op_ok ops ->
  concat parts = ops -> Forall (fun p => ops_len p <= clamp_section n) parts -> parts <> [] ->
  (length (make_sections ops n) <= length parts)%nat.
Proof.
  intros ops n parts Hok Hcat Hp Hne. destruct parts as [|p ps]; [congruence|]. inversion Hp; subst. unfold make_sections.
  assert (E : to_u32 (Z.min (Z.max n MAX_INST_SIZE) MAX_WIN_SIZE) = clamp_section n) by (unfold MAX_INST_SIZE, MAX_WIN_SIZE, clamp_section, max_inst_size, max_win_size; apply to_u32_id; lia).
  rewrite E. destruct (greedy (clamp_section n) (concat (p :: ps)) [] 0 0 Hok) as [A _]. apply (A 0 p ps); [lia|lia|assumption|reflexivity].
Qed.
Lemma count_bound max : forall ops cur osize nadd, Forall op_ok ops -> 0 <= osize ->
  (Z.of_nat (count max ops cur osize nadd) - 1) * max <= osize + 2 * ops_len ops.
Proof.
  induction ops as [|x r IH]; intros cur osize nadd Hok Ho; unfold count; cbn [make_sections_loop].
  - cbn [length]. change (ops_len []) with 0. lia.
  - inversion Hok as [|? ? Hx Hr]; subst. destruct (oal_op_ok x Hx) as [-> Hl]. rewrite ops_len_cons. destruct (osize + op_len x >? max) eqn:E.
    + specialize (IH [x] (op_len x) (if is_add x then op_len x else 0) Hr ltac:(lia)). unfold count in IH. cbn [length]. lia.
    + specialize (IH (cur ++ [x]) (osize + op_len x) (if is_add x then nadd + op_len x else nadd) Hr ltac:(lia)). unfold count in IH. lia.
Qed.
(** C90. In numbers: one section more than twice the output divided by the section size. *)
Theorem C90_section_count : forall ops n, Forall op_ok ops ->
  1 <= zlen (make_sections ops n) <= 1 + 2 * ops_len ops / clamp_section n.
Proof.
  intros ops n Hok. unfold make_sections.
  assert (E : to_u32 (Z.min (Z.max n MAX_INST_SIZE) MAX_WIN_SIZE) = clamp_section n) by (unfold MAX_INST_SIZE, MAX_WIN_SIZE, clamp_section, max_inst_size, max_win_size; apply to_u32_id; lia).
  rewrite E. assert (Hc : 0 < clamp_section n) by (unfold clamp_section, max_inst_size, max_win_size; lia).
  pose proof (count_bound (clamp_section n) ops [] 0 0 Hok ltac:(lia)) as B. unfold count in B. fold (zlen (make_sections_loop (clamp_section n) ops [] 0 0)) in B.
  split.
  - pose proof (make_sections_loop_nonempty (clamp_section n) ops [] 0 0). destruct (make_sections_loop (clamp_section n) ops [] 0 0) as [|s l]; [congruence|]. rewrite zlen_cons. pose proof (zlen_nonneg l). lia.
  - assert (zlen (make_sections_loop (clamp_section n) ops [] 0 0) - 1 <= 2 * ops_len ops / clamp_section n); [|lia]. apply Z.div_le_lower_bound; [exact Hc|]. lia.
Qed.
(** Three operations of 40000, 20000 and 10000 bytes with sections of 65535: two sections; one would not fit. *)
Example C90_example : let ops := [Copy Dict 0 40000; Copy Dict 0 20000; Copy Dict 0 10000] in
  Forall op_ok ops /\ map fst (make_sections ops 0) = [[Copy Dict 0 40000; Copy Dict 0 20000]; [Copy Dict 0 10000]] /\
  (2 <= length [[Copy Dict 0 40000]; [Copy Dict 0 20000; Copy Dict 0 10000]])%nat /\ 1 + 2 * ops_len ops / clamp_section 0 = 3.
Proof. cbv zeta. split; [repeat constructor; cbn; lia|]. split; [vm_compute; reflexivity|]. split; [cbn; lia|vm_compute; reflexivity]. Qed.

(** ** C91: the number of bytes, from the format: numbers take a byte per 7 bits, sizes of 1..62 fit into the operation byte *)
Definition number_len (v : Z) : Z := 1 + Z.log2 v / 7.
Definition size_len (n : Z) : Z := if (1 <=? n) && (n <=? 62) then 0 else if n =? 63 then 1 else 2.
Definition op_cost (d o : Z) (x : op) : Z :=
  1 + size_len (op_len x) + match x with Add bs => zlen bs | Run _ _ => 1 | Copy s a _ => number_len (zigzag (a - last_addr d o s)) end.
Fixpoint ops_cost (d o : Z) (ops : list op) : Z := match ops with [] => 0 | x :: r => op_cost d o x + ops_cost (next_d d x) (next_o o x) r end.
Definition header_cost (f : format) (ops : list op) : Z :=
  1 + number_len (zlen ops) + match f with Segregated => number_len (adds_len ops) + number_len (ops_len ops - adds_len ops) | Interleaved => number_len (ops_len ops) end.
Definition section_cost (f : format) (ops : list op) : Z := header_cost f ops + ops_cost 0 0 ops.
Definition sections_cost (f : format) (secs : list (list op)) : Z := fold_right (fun s t => section_cost f s + t) 0 secs.

Lemma number_len_ok n b : 0 <= n < 2 ^ 64 -> write_u_varint n = (b, Ok tt) -> zlen b = number_len n.
Proof.
  intros Hn H. destruct (write_u_varint_len n Hn) as (b' & E & _ & Hb & Hlt & Hmin). rewrite H in E. injection E as <-. unfold number_len.
  destruct (Z.eq_dec n 0) as [->|Hz].
  - specialize (Hmin 1 ltac:(lia) ltac:(lia)). change (Z.log2 0 / 7) with 0. lia.
  - destruct (Z.log2_spec n ltac:(lia)) as [Hlo Hhi]. pose proof (Z.log2_nonneg n) as Hl0. pose proof (Z.div_mod (Z.log2 n) 7 ltac:(lia)) as Hd. pose proof (Z.mod_pos_bound (Z.log2 n) 7 ltac:(lia)) as Hm.
    assert (Hk : zlen b <= 1 + Z.log2 n / 7).
    { apply Hmin; [pose proof (Z.div_pos (Z.log2 n) 7 Hl0 ltac:(lia)); lia|]. eapply Z.lt_le_trans; [exact Hhi|]. apply Z.pow_le_mono_r; lia. }
    assert (Z.log2 n < 7 * zlen b); [|lia]. apply Z.log2_lt_pow2; [lia|exact Hlt].
Qed.
Lemma u64_range v : 0 <= to_u64 v < 2 ^ 64.
Proof. unfold to_u64. apply Z.mod_pos_bound. lia. Qed.
Definition near (x : op) : Prop := match x with Copy _ a _ => a < 2 ^ 63 | _ => True end.
Lemma delta_exact m cur a i : 0 <= cur < 2 ^ 63 -> 0 <= a < 2 ^ 63 -> diff_addresses_to_i64 m cur a = Ok i -> i = a - cur.
Proof.
  intros Hc Ha H. unfold diff_addresses_to_i64 in H. destruct (a >? cur) eqn:E.
  - injection H as <-. apply to_i64_id. lia.
  - rewrite to_i64_id in H by lia. replace ((cur - a) * -1) with (a - cur) in H by lia. unfold arith in H. rewrite to_i64_id in H by lia. rewrite Z.eqb_refl in H. destruct m; injection H as <-; reflexivity.
Qed.
Lemma head_cost x b : op_ok x -> write_op_byte_and_size x = (b, Ok tt) -> zlen b = 1 + size_len (op_len x).
Proof.
  intros Hx H. destruct (oal_op_ok x Hx) as [Ho Hr]. unfold write_op_byte_and_size in H. rewrite Ho in H. apply wbind_ok in H as (o1 & u & o2 & E1 & H & ->). apply wlift_inv in E1 as [-> E1].
  unfold size_routine in H. unfold size_len. cbn [app]. destruct ((1 <=? op_len x) && (op_len x <=? 62)); [|destruct (op_len x =? 63)].
  - injection H as <-. reflexivity.
  - apply wbind_ok in H as (o3 & u' & o4 & E2 & H & ->). apply wlift_inv in E2 as [-> _]. injection H as <-. reflexivity.
  - apply wbind_ok in H as (o3 & u' & o4 & E2 & H & ->). apply wlift_inv in E2 as [-> _]. injection H as <-. reflexivity.
Qed.
Lemma ivarint_cost i b : - 2 ^ 63 <= i < 2 ^ 63 -> write_i_varint i = (b, Ok tt) -> zlen b = number_len (zigzag i).
Proof.
  intros Hi H. unfold write_i_varint in H. rewrite (zigzag_encode_spec i Hi) in H. apply number_len_ok; [|exact H]. unfold zigzag. destruct (0 <=? i) eqn:E; lia.
Qed.
Lemma addtl_cost m x d o b r : op_ok x -> near x -> 0 <= d < 2 ^ 63 -> 0 <= o < 2 ^ 63 -> write_op_addtl m x d o = (b, Ok r) ->
  zlen b = op_cost d o x - 1 - size_len (op_len x) /\ r = (next_d d x, next_o o x).
Proof.
  intros Hx Hn Hd Ho H. unfold op_cost. destruct x as [bs|c n|s a n].
  - apply wbind_ok in H as (o1 & u & o2 & E1 & H & ->). apply wlift_inv in H as [-> H]. injection H as <-. injection E1 as <-. rewrite app_nil_r. split; [lia|reflexivity].
  - apply wbind_ok in H as (o1 & u & o2 & E1 & H & ->). apply wlift_inv in H as [-> H]. injection H as <-. injection E1 as <-. rewrite app_nil_r. split; [|reflexivity]. change (zlen [c]) with 1. lia.
  - destruct Hx as [[Ha _] _]. cbn [near] in Hn. destruct s; cbn [write_op_addtl] in H; apply wbind_ok in H as (o1 & i & o2 & E1 & H & ->); apply wlift_inv in E1 as [-> E1];
      apply wbind_ok in H as (o3 & u & o4 & E2 & H & ->); apply wlift_inv in H as [-> H]; injection H as <-; cbn [app last_addr next_d next_o]; rewrite app_nil_r; destruct u; (split; [|reflexivity]).
    + pose proof (delta_exact m d a i Hd ltac:(lia) E1) as Hi. apply (ivarint_cost i o3 ltac:(lia)) in E2. rewrite Hi in E2. lia.
    + pose proof (delta_exact m o a i Ho ltac:(lia) E1) as Hi. apply (ivarint_cost i o3 ltac:(lia)) in E2. rewrite Hi in E2. lia.
Qed.
Lemma loop_cost m f : forall ops d o t a ad b t' a' ad', Forall op_ok ops -> Forall near ops -> 0 <= d < 2 ^ 63 -> 0 <= o < 2 ^ 63 ->
  write_ops_loop m f ops d o t a ad = (b, Ok (t', a', ad')) -> zlen b + zlen ad' = zlen ad + ops_cost d o ops.
Proof.
  induction ops as [|x ops IH]; intros d o t a ad b t' a' ad' Hok Hn Hd Ho H; cbn [write_ops_loop ops_cost] in *.
  - apply wlift_inv in H as [-> H]. injection H as _ _ <-. rewrite (@zlen_nil Z). lia.
  - inversion Hok as [|? ? Hx Hr]; subst. inversion Hn as [|? ? Nx Nr]; subst. apply wbind_ok in H as (o1 & u & o2 & E1 & H & ->). pose proof (head_cost x o1 Hx ltac:(destruct u; exact E1)) as Hh. rewrite zlen_app.
    assert (Hnext : 0 <= next_d d x < 2 ^ 63 /\ 0 <= next_o o x < 2 ^ 63) by (destruct x as [bs|c n|[|] ad0 n]; cbn [next_d next_o near] in *; destruct Hx as [Hx _]; cbn [op_typed] in Hx; lia).
    destruct Hnext as [Hd' Ho'].
    assert (G : (dow da <- write_op_addtl m x d o; write_ops_loop m f ops (fst da) (snd da) (t + oal x) a ad) = (o2, Ok (t', a', ad')) -> zlen o1 + zlen o2 + zlen ad' = zlen ad + (op_cost d o x + ops_cost (next_d d x) (next_o o x) ops)).
    { intro G. apply wbind_ok in G as (o3 & r & o4 & E2 & G & ->). destruct (addtl_cost m x d o o3 r Hx Nx Hd Ho E2) as [Hl ->]. cbn [fst snd] in G. specialize (IH _ _ _ _ _ _ _ _ _ Hr Nr Hd' Ho' G). rewrite zlen_app. lia. }
    destruct f; [exact (G H)|]. destruct x as [bs|c n|s a0 n]; [|exact (G H)|exact (G H)].
    specialize (IH _ _ _ _ _ _ _ _ _ Hr Nr Hd Ho H). rewrite zlen_app in IH. unfold op_cost in *. cbn [next_d next_o op_len] in *. lia.
Qed.
Lemma loop_interleaved_adds m : forall ops d o t a ad b t' a' ad', write_ops_loop m Interleaved ops d o t a ad = (b, Ok (t', a', ad')) -> ad' = ad.
Proof.
  induction ops as [|x ops IH]; intros d o t a ad b t' a' ad' H; cbn [write_ops_loop] in H.
  - apply wlift_inv in H as [_ H]. injection H as _ _ <-. reflexivity.
  - apply wbind_ok in H as (o1 & u & o2 & E1 & H & ->). apply wbind_ok in H as (o3 & r & o4 & E2 & H & ->). exact (IH _ _ _ _ _ _ _ _ _ H).
Qed.
Lemma write_ops_cost m ops h b : Forall op_ok ops -> Forall near ops -> write_ops m ops h = (b, Ok tt) -> zlen b = ops_cost 0 0 ops.
Proof.
  intros Hok Hn H. unfold write_ops in H. destruct (h_osize h >? MAX_WIN_SIZE); [discriminate H|]. destruct (negb (zlen ops =? h_nops h)); [discriminate H|].
  apply wbind_ok in H as (o1 & [[t a] ad] & o2 & E1 & H & ->). pose proof (loop_cost m (h_format h) ops 0 0 0 0 [] o1 t a ad Hok Hn ltac:(lia) ltac:(lia) E1) as C. rewrite (@zlen_nil Z) in C. rewrite zlen_app.
  apply wbind_ok in H as (o3 & u & o4 & E2 & H & ->). assert (o4 = []) as -> by (destruct (negb (t =? h_osize h)); apply wlift_inv in H as [-> _]; reflexivity). rewrite app_nil_r.
  destruct (h_format h) eqn:Ef; cbn [is_segregated] in E2.
  - apply wlift_inv in E2 as [-> _]. apply loop_interleaved_adds in E1. subst ad. rewrite (@zlen_nil Z) in *. lia.
  - apply wbind_ok in E2 as (o5 & u2 & o6 & E3 & E2 & ->). injection E3 as <-. assert (o6 = []) as -> by (destruct (negb (a =? h_nadd h)); apply wlift_inv in E2 as [-> _]; reflexivity). rewrite app_nil_r. lia.
Qed.
Lemma write_header_cost m ops h b : header_typed h -> h_nops h = zlen ops -> h_osize h = ops_len ops -> (h_format h = Segregated -> h_nadd h = adds_len ops) -> adds_len ops <= ops_len ops ->
  write_section_header m h = (b, Ok tt) -> zlen b = header_cost (h_format h) ops.
Proof.
  intros (_ & T1 & T2 & T3) H1 H2 H3 Hle H. unfold write_section_header in H. apply wbind_ok in H as (o1 & u1 & o2 & E1 & H & ->). injection E1 as <-. apply wbind_ok in H as (o3 & u3 & o4 & E2 & H & ->).
  destruct u3. apply number_len_ok in E2; [|lia]. apply wbind_ok in H as (o5 & v & o6 & E3 & H & ->). rewrite !zlen_app, zlen_cons, (@zlen_nil Z). unfold header_cost. rewrite <- H1, <- H2.
  destruct (h_format h); cbn [is_segregated] in E3.
  - apply wlift_inv in E3 as [-> E3]. injection E3 as <-. apply number_len_ok in H; [|lia]. rewrite (@zlen_nil Z). lia.
  - specialize (H3 eq_refl). apply wbind_ok in E3 as (o7 & u4 & o8 & E4 & E3 & ->). destruct u4. apply number_len_ok in E4; [|lia]. apply wlift_inv in E3 as [-> E3]. unfold arith in E3. rewrite to_u32_id in E3 by lia. rewrite Z.eqb_refl in E3.
    assert (v = h_osize h - h_nadd h) by (destruct m; injection E3 as <-; reflexivity). subst v. apply number_len_ok in H; [|lia]. rewrite !app_nil_r. rewrite <- H3. lia.
Qed.

(** C91. The exact size of a patch written with the API, section by section. The two formats store the operations in the same number of bytes. *)
Theorem C91_written_size : forall m secs patch, written m secs patch ->
  Forall (fun s => section_in m s /\ Forall near (fst s)) secs ->
  zlen patch = fold_right (fun s t => section_cost (h_format (snd s)) (fst s) + t) 0 secs.
Proof.
  assert (S1 : forall m ops h hb ob, section_in m (ops, h) -> Forall near ops -> write_section_header m h = (hb, Ok tt) -> write_ops m ops h = (ob, Ok tt) -> zlen hb + zlen ob = section_cost (h_format h) ops).
  { intros m ops h hb ob Hin Hn Hh Ho. pose proof Hin as (Ht & Hl & Hty & _). cbn [fst snd] in *.
    destruct (proj1 (TSection.C12_writer_validation_exact m ops h Ht Hl)) as (V1 & V2 & V3 & V4 & V5 & _); [rewrite Ho; reflexivity|].
    assert (Hok : Forall op_ok ops).
    { rewrite Forall_forall in *. intros x Hx. specialize (Ht x Hx). specialize (Hl x Hx). specialize (V5 x Hx). split; [exact Ht|]. destruct x; cbn [op_legal op_typed add_len] in *; lia. }
    pose proof (adds_len_bounds ops Hok). rewrite (write_ops_cost m ops h ob Hok Hn Ho). rewrite (write_header_cost m ops h hb Hty V3 V2 V4 ltac:(lia) Hh). reflexivity. }
  intros m secs patch W. induction W as [ops h hb ob Hm Hh Ho|ops h hb ob secs bs Hm Hh Ho W IH]; intro HF; apply Forall_cons_iff in HF as [[Hi Hn] HF]; cbn [fold_right fst snd].
  - rewrite zlen_app, (S1 m ops h hb ob Hi Hn Hh Ho). lia.
  - specialize (IH HF). pose proof (S1 m ops h hb ob Hi Hn Hh Ho). rewrite !zlen_app. lia.
Qed.
Lemma write_sections_cost m f src trgt : forall secs cur b, Forall (fun s => sec_in f max_win_size (fst s, set_format (snd s) f) /\ Forall near (fst s)) secs ->
  write_sections m (plain_writer m) f src trgt cur secs = (b, Ok tt) -> zlen b = sections_cost f (map fst secs).
Proof.
  induction secs as [|[ops h] secs IH]; intros cur b Hin H.
  - apply wlift_inv in H as [-> _]. reflexivity.
  - apply Forall_cons_iff in Hin as [[Hi Hn] Hin]. cbn [fst snd] in Hi, Hn. cbn [write_sections] in H. cbv zeta in H.
    apply wbind_ok in H as (o1 & [] & o2 & Hc & H & ->). apply wlift_inv in Hc as [-> Hc]. cbn [app].
    apply wbind_ok in H as (o3 & [] & o4 & Hw & H & ->). specialize (IH _ _ Hin H). rewrite zlen_app, IH. cbn [map fst sections_cost fold_right].
    unfold plain_writer in Hw. apply wbind_ok in Hw as (hb & [] & ob & Eh & Eo & ->). rewrite zlen_app.
    destruct Hi as (Hok & _ & _ & Hf & Hty & (_ & M1 & M2 & M3) & _). cbn [fst snd] in *. pose proof (adds_len_bounds ops Hok).
    rewrite (write_ops_cost m ops _ ob Hok Hn Eo). rewrite (write_header_cost m ops _ hb Hty M1 M2 M3 ltac:(lia) Eh). unfold section_cost. rewrite Hf. unfold sections_cost. reflexivity.
Qed.
Lemma addrs_near ops : addrs_lt (2 ^ 63) ops -> Forall near ops.
Proof. apply Forall_impl. intros [bs|b n|s a n]; cbn [near]; try (intros _; exact I). intro H. apply H. Qed.
Lemma encode_sized m m' cd c dict trgt patch : Forall is_byte trgt -> zlen trgt < 2 ^ 63 -> zlen (source_of dict) < 2 ^ 63 -> cf_comp c = None -> encode m cd c dict trgt = (patch, Ok tt) ->
  exists ops outs, patch_read (next_section m' cd) patch outs [] /\ map fst outs = map fst (make_sections ops (cf_segment c)) /\ concat (map fst outs) = ops /\ makes (source_of dict) [] ops trgt /\ Forall near ops /\
    zlen patch = sections_cost (cf_format c) (map fst outs) /\ exists cs, encode_inner m (inner_of c) (source_of dict) trgt = Ok cs /\ translate_inner_ops m trgt cs = Ok ops.
Proof.
  intros Hb Ht Hs Hc H. assert (Hcd : comp_lossless cd (cf_comp c) trgt) by (rewrite Hc; exact I).
  destruct (encode_good m m' cd c dict trgt patch Hcd Hb Ht Hs H) as (cs & ops & Ei & Et & Hmk & _ & Hcat & _ & Hin & Hsg).
  destruct (secs_good_read _ _ _ Hsg []) as (outs & Hr & Hall). rewrite app_nil_r in Hr.
  assert (Eo : map fst outs = map fst (make_sections ops (cf_segment c))) by (rewrite (Forall2_fst _ _ _ (fun _ _ X => proj1 X) Hall); apply sec_with_ops).
  exists ops, outs. split; [exact Hr|]. split; [exact Eo|]. split; [rewrite Eo; exact Hcat|]. split; [exact Hmk|].
  assert (Hn : addrs_lt (2 ^ 63) ops) by (destruct Hmk as [Hg Hrun]; apply (run_ops_addrs (source_of dict) (2 ^ 63) ltac:(lia) ops [] trgt Hrun Hg); lia).
  split; [exact (addrs_near _ Hn)|]. split; [|exists cs; split; [exact Ei|exact Et]].
  unfold encode in H. cbv zeta in H. rewrite Hc in H. change (section_writer m cd None) with (plain_writer m) in H.
  destruct (encode_with_inv _ _ _ _ _ _ _ _ H) as (cs' & ops' & Ei' & Et' & Hw). rewrite Ei in Ei'. injection Ei' as <-. rewrite Et in Et'. injection Et' as <-.
  rewrite Eo. refine (write_sections_cost m _ _ _ _ 0 patch _ Hw). rewrite <- Hcat in Hn. apply addrs_concat in Hn. rewrite Forall_map in Hn. rewrite Forall_forall in *. intros s Hx.
  destruct (Hin s Hx) as (G1 & G2 & G3 & G4 & G5 & G5b & G6). split; [|apply addrs_near; exact (Hn s Hx)]. repeat (split; [assumption|]). eapply Z.le_trans; [exact G6|]. unfold clamp_section, max_inst_size, max_win_size. lia.
Qed.
(** C91. The exact size of what encode writes without secondary compression. *)
Theorem C91_encoded_size : forall m m' cd c dict trgt patch, Forall is_byte trgt -> zlen trgt < 2 ^ 63 -> zlen (source_of dict) < 2 ^ 63 ->
  cf_comp c = None -> encode m cd c dict trgt = (patch, Ok tt) ->
  exists secs, patch_read (next_section m' cd) patch secs [] /\ zlen patch = sections_cost (cf_format c) (map fst secs).
Proof.
  intros m m' cd c dict trgt patch Hb Ht Hs Hc H. destruct (encode_sized m m' cd c dict trgt patch Hb Ht Hs Hc H) as (ops & outs & Hr & _ & _ & _ & _ & Hz & _). exists outs. split; [exact Hr|exact Hz].
Qed.

(** ** Bounds *)
Lemma number_len_le v k : 0 <= v -> 1 <= k -> v < 2 ^ (7 * k) -> 1 <= number_len v <= k.
Proof.
  intros Hv Hk H. unfold number_len. pose proof (Z.log2_nonneg v) as Hl. pose proof (Z.div_pos (Z.log2 v) 7 Hl ltac:(lia)). split; [lia|].
  assert (Z.log2 v / 7 < k); [|lia]. apply Z.div_lt_upper_bound; [lia|]. destruct (Z.eq_dec v 0) as [->|Hz]; [change (Z.log2 0) with 0; lia|]. apply Z.log2_lt_pow2; lia.
Qed.
Lemma size_len_range n : 0 <= size_len n <= 2.
Proof. unfold size_len. destruct ((1 <=? n) && (n <=? 62)); [|destruct (n =? 63)]; lia. Qed.
Lemma op_cost_range d o x : op_ok x -> near x -> 0 <= d < 2 ^ 63 -> 0 <= o < 2 ^ 63 -> 1 + add_len x <= op_cost d o x <= 13 + add_len x.
Proof.
  intros Hx Hn Hd Ho. unfold op_cost. pose proof (size_len_range (op_len x)). destruct x as [bs|b n|s a n]; cbn [add_len]; [lia|lia|]. destruct Hx as [[Ha _] _]. cbn [near] in Hn.
  assert (Hz : 0 <= zigzag (a - last_addr d o s) < 2 ^ (7 * 10)) by (unfold zigzag; destruct s; cbn [last_addr]; [destruct (0 <=? a - d) eqn:E|destruct (0 <=? a - o) eqn:E]; lia).
  pose proof (number_len_le (zigzag (a - last_addr d o s)) 10 ltac:(lia) ltac:(lia) ltac:(lia)). lia.
Qed.
Lemma ops_cost_range : forall ops d o, Forall op_ok ops -> Forall near ops -> 0 <= d < 2 ^ 63 -> 0 <= o < 2 ^ 63 ->
  zlen ops + adds_len ops <= ops_cost d o ops <= 13 * zlen ops + adds_len ops.
Proof.
  induction ops as [|x ops IH]; intros d o Hok Hn Hd Ho; [cbn; lia|]. inversion Hok as [|? ? Hx Hr]; subst. inversion Hn as [|? ? Nx Nr]; subst. cbn [ops_cost]. rewrite adds_len_cons, zlen_cons.
  pose proof (op_cost_range d o x Hx Nx Hd Ho).
  assert (Hnext : 0 <= next_d d x < 2 ^ 63 /\ 0 <= next_o o x < 2 ^ 63) by (destruct x as [bs|c n|[|] ad0 n]; cbn [next_d next_o near] in *; destruct Hx as [Hx _]; cbn [op_typed] in Hx; lia).
  destruct Hnext as [Hd' Ho']. specialize (IH _ _ Hr Nr Hd' Ho'). lia.
Qed.
Lemma header_cost_range f ops : zlen ops < 2 ^ 28 -> 0 <= adds_len ops <= ops_len ops -> ops_len ops < 2 ^ 28 -> 3 <= header_cost f ops <= 13.
Proof.
  intros H1 H2 H3. unfold header_cost. pose proof (zlen_nonneg ops). pose proof (number_len_le (zlen ops) 4 ltac:(lia) ltac:(lia) ltac:(lia)). destruct f.
  - pose proof (number_len_le (ops_len ops) 4 ltac:(lia) ltac:(lia) ltac:(lia)). lia.
  - pose proof (number_len_le (adds_len ops) 4 ltac:(lia) ltac:(lia) ltac:(lia)). pose proof (number_len_le (ops_len ops - adds_len ops) 4 ltac:(lia) ltac:(lia) ltac:(lia)). lia.
Qed.
Lemma sections_cost_range f : forall secs, Forall (fun ops => Forall op_good ops /\ Forall near ops /\ ops_len ops <= max_win_size) secs ->
  3 * zlen secs + zlen (concat secs) + adds_len (concat secs) <= sections_cost f secs <= 13 * zlen secs + 13 * zlen (concat secs) + adds_len (concat secs).
Proof.
  induction secs as [|ops secs IH]; intro H; [cbn; lia|]. apply Forall_cons_iff in H as [(Hg & Hn & Hm) H]. specialize (IH H). change (sections_cost f (ops :: secs)) with (section_cost f ops + sections_cost f secs). cbn [concat]. rewrite adds_len_app, zlen_app, zlen_cons. unfold max_win_size in Hm.
  pose proof (good_ok _ Hg) as Hok. pose proof (good_zlen _ Hg). pose proof (adds_len_bounds ops Hok). pose proof (ops_cost_range ops 0 0 Hok Hn ltac:(lia) ltac:(lia)). pose proof (header_cost_range f ops ltac:(lia) ltac:(lia) ltac:(lia)).
  unfold section_cost. lia.
Qed.
(** C91. A patch is at most its literal bytes, 13 bytes for every operation and 13 for every section long, and there are at most
    1 + 2 |target| / section size sections. *)
Theorem C91_size_bound : forall m m' cd c dict trgt patch, Forall is_byte trgt -> zlen trgt < 2 ^ 63 -> zlen (source_of dict) < 2 ^ 63 ->
  cf_comp c = None -> encode m cd c dict trgt = (patch, Ok tt) ->
  exists secs, patch_read (next_section m' cd) patch secs [] /\
    let ops := concat (map fst secs) in
    3 * zlen secs + zlen ops + adds_len ops <= zlen patch <= 13 * zlen secs + 13 * zlen ops + adds_len ops /\
    1 <= zlen secs <= 1 + 2 * zlen trgt / clamp_section (cf_segment c).
Proof.
  intros m m' cd c dict trgt patch Hb Ht Hs Hc H. destruct (encode_sized m m' cd c dict trgt patch Hb Ht Hs Hc H) as (ops & outs & Hr & Eo & Ec & [Hg Hrun] & Hn & Hz & _). exists outs. split; [exact Hr|]. cbv zeta. split.
  - assert (HF : Forall (fun ops => Forall op_good ops /\ Forall near ops /\ ops_len ops <= max_win_size) (map fst outs)).
    { rewrite Eo. pose proof (good_ok _ Hg) as Hok. destruct (make_sections_spec ops (cf_segment c) Hok) as ((Hsec & _) & Hcat & _); [right; apply (Forall_impl _ (fun x (Hx : op_good x) => proj2 Hx)); exact Hg|].
      rewrite Forall_map. rewrite <- Hcat in Hg, Hn. apply Forall_concat_inv in Hg. apply Forall_concat_inv in Hn. rewrite Forall_map in Hg, Hn. rewrite Forall_forall in *. intros s Hx. split; [exact (Hg s Hx)|]. split; [exact (Hn s Hx)|].
      destruct (Hsec s Hx) as (_ & _ & (_ & Ho & _) & Hle). rewrite <- Ho. eapply Z.le_trans; [apply Hle|]. unfold clamp_section, max_inst_size, max_win_size. lia. }
    pose proof (sections_cost_range (cf_format c) _ HF) as B. rewrite <- Hz in B. replace (zlen (map fst outs)) with (zlen outs) in B by (unfold zlen; rewrite map_length; reflexivity). exact B.
  - replace (zlen outs) with (zlen (make_sections ops (cf_segment c))) by (unfold zlen; rewrite <- (map_length fst outs), Eo, map_length; reflexivity).
    replace (zlen trgt) with (ops_len ops); [apply C90_section_count; exact (good_ok _ Hg)|]. pose proof (run_ops_len _ _ _ _ (ops_ok_nonneg _ (good_ok _ Hg)) Hrun) as L. rewrite (@zlen_nil Z) in L. cbn [app] in L. lia.
Qed.
Lemma pieces_shape : forall fuel l, (length l <= fuel)%nat -> Forall is_byte l ->
  Forall op_ok (pieces fuel l) /\ adds_len (pieces fuel l) = zlen l /\ zlen (pieces fuel l) = (zlen l + 65534) / 65535 /\ forallb (fun x => negb (is_copy x)) (pieces fuel l) = true.
Proof.
  induction fuel as [|k IH]; intros l Hf Hb; cbn [pieces].
  - destruct l; [|cbn in Hf; lia]. split; [constructor|]. split; [reflexivity|]. split; [vm_compute; reflexivity|]. reflexivity.
  - destruct l as [|x l]; [split; [constructor|]; split; [reflexivity|]; split; [vm_compute; reflexivity|]; reflexivity|]. set (y := x :: l) in *.
    assert (Hl : zlen y > 0) by (unfold y; rewrite zlen_cons; pose proof (zlen_nonneg l); lia).
    assert (Hd : zlen (drop 65535 y) = Z.max 0 (zlen y - 65535)) by (rewrite zlen_drop_max; lia).
    assert (Ht : zlen (take 65535 y) = Z.min 65535 (zlen y)) by (rewrite zlen_take_min; lia).
    destruct (IH (drop 65535 y)) as (I1 & I2 & I3 & I4); [unfold zlen in *; lia|apply Forall_drop; exact Hb|].
    split; [constructor; [split; [apply Forall_take; exact Hb|cbn [op_legal]; lia]|exact I1]|]. split; [rewrite adds_len_cons; cbn [add_len]; lia|]. split.
    + rewrite zlen_cons, I3, Hd. destruct (Z.le_gt_cases (zlen y) 65535).
      * rewrite Z.max_l by lia. change ((0 + 65534) / 65535) with 0. apply (Z.div_unique _ _ _ (zlen y - 1)); lia.
      * rewrite Z.max_r by lia. replace (zlen y + 65534) with ((zlen y - 65535 + 65534) + 1 * 65535) by lia. rewrite Z.div_add by lia. lia.
    + cbn [forallb is_copy negb andb]. exact I4.
Qed.
Lemma no_copy_cost : forall ops d o, Forall op_ok ops -> forallb (fun x => negb (is_copy x)) ops = true -> ops_cost d o ops <= 3 * zlen ops + adds_len ops.
Proof.
  induction ops as [|x ops IH]; intros d o Hok Hc; [cbn; lia|]. inversion Hok as [|? ? Hx Hr]; subst. cbn [forallb] in Hc. apply andb_true_iff in Hc as [Hc1 Hc]. cbn [ops_cost]. rewrite adds_len_cons, zlen_cons. specialize (IH (next_d d x) (next_o o x) Hr Hc).
  unfold op_cost. pose proof (size_len_range (op_len x)). destruct x as [bs|b n|s a n]; cbn [add_len op_len] in *; [lia| |discriminate Hc1].
  destruct Hx as [_ Hx]. cbn [op_legal] in Hx. unfold size_len. replace ((1 <=? n) && (n <=? 62)) with true by lia. lia.
Qed.
Lemma no_copy_sections f : forall secs, Forall (fun ops => Forall op_good ops /\ ops_len ops <= max_win_size) secs -> forallb (fun x => negb (is_copy x)) (concat secs) = true ->
  sections_cost f secs <= 13 * zlen secs + 3 * zlen (concat secs) + adds_len (concat secs).
Proof.
  induction secs as [|ops secs IH]; intros H Hc; [cbn; lia|]. apply Forall_cons_iff in H as [(Hg & Hm) H]. cbn [concat] in *. rewrite forallb_app in Hc. apply andb_true_iff in Hc as [Hc1 Hc]. specialize (IH H Hc).
  change (sections_cost f (ops :: secs)) with (section_cost f ops + sections_cost f secs). rewrite adds_len_app, zlen_app, zlen_cons. unfold max_win_size in Hm.
  pose proof (good_ok _ Hg) as Hok. pose proof (good_zlen _ Hg). pose proof (adds_len_bounds ops Hok). pose proof (no_copy_cost ops 0 0 Hok Hc1). pose proof (header_cost_range f ops ltac:(lia) ltac:(lia) ltac:(lia)).
  unfold section_cost. lia.
Qed.
(** C91. With matching off the overhead over the target itself is at most 3 bytes for every 65535 and 13 for every section. *)
Theorem C91_no_matching_bound : forall m cd c dict trgt patch, Forall is_byte trgt -> zlen trgt < 2 ^ 63 -> zlen (source_of dict) < 2 ^ 63 ->
  cf_comp c = None -> cf_src c = None -> cf_trgt c = None -> encode m cd c dict trgt = (patch, Ok tt) ->
  zlen patch <= zlen trgt + 3 * ((zlen trgt + 65534) / 65535) + 13 * (1 + 2 * zlen trgt / clamp_section (cf_segment c)).
Proof.
  intros m cd c dict trgt patch Hb Ht Hs Hc Hsrc Htr H.
  destruct (encode_sized m m cd c dict trgt patch Hb Ht Hs Hc H) as (ops & outs & Hr & Eo & Ec & [Hg Hrun] & Hn & Hz & cs & Ei & Et).
  assert (Hops : ops = match trgt with [b] => [Run b 1] | _ => pieces (length trgt) trgt end).
  { unfold encode_inner in Ei. cbn [inner_of ic_src ic_trgt] in Ei. rewrite Hsrc, Htr in Ei. injection Ei as <-.
    unfold translate_inner_ops in Et. cbn [bind pass2] in Et. destruct (zlen trgt >? 0) eqn:E.
    - apply bind_ok in Et as (b & Eb & Et). rewrite slice_ok in Eb by lia. injection Eb as <-. rewrite Z.sub_0_r, sub_all in Et by lia. unfold make_add_ops in Et.
      destruct trgt as [|x [|y r]]; [cbn in E; discriminate|injection Et as <-; reflexivity|]. apply add_chunks_pieces; [lia|exact Et].
    - injection Et as <-. assert (trgt = []) by (apply zlen_0; pose proof (zlen_nonneg trgt); lia). subst. reflexivity. }
  assert (Hsh : adds_len ops <= zlen trgt /\ zlen ops = (zlen trgt + 65534) / 65535 /\ forallb (fun x => negb (is_copy x)) ops = true).
  { destruct trgt as [|x [|y r]]; [rewrite Hops; split; [cbn; lia|]; split; [vm_compute; reflexivity|reflexivity]|rewrite Hops; split; [cbn; lia|]; split; [reflexivity|reflexivity]|].
    destruct (pieces_shape (length (x :: y :: r)) (x :: y :: r) ltac:(lia) Hb) as (_ & P2 & P3 & P4). rewrite Hops. split; [lia|]. split; [exact P3|exact P4]. }
  destruct Hsh as (A1 & A2 & A3).
  assert (HF : Forall (fun ops => Forall op_good ops /\ ops_len ops <= max_win_size) (map fst outs)).
  { rewrite Eo. pose proof (good_ok _ Hg) as Hok. destruct (make_sections_spec ops (cf_segment c) Hok) as ((Hsec & _) & Hcat & _); [right; apply (Forall_impl _ (fun x (Hx : op_good x) => proj2 Hx)); exact Hg|].
    rewrite Forall_map. rewrite <- Hcat in Hg. apply Forall_concat_inv in Hg. rewrite Forall_map in Hg. rewrite Forall_forall in *. intros s Hx. split; [exact (Hg s Hx)|].
    destruct (Hsec s Hx) as (_ & _ & (_ & Ho & _) & Hle). rewrite <- Ho. eapply Z.le_trans; [apply Hle|]. unfold clamp_section, max_inst_size, max_win_size. lia. }
  assert (A3' : forallb (fun x => negb (is_copy x)) (concat (map fst outs)) = true) by (rewrite Ec; exact A3).
  pose proof (no_copy_sections (cf_format c) _ HF A3') as B. rewrite Ec, <- Hz in B.
  replace (zlen (map fst outs)) with (zlen (make_sections ops (cf_segment c))) in B by (rewrite Eo; unfold zlen; rewrite map_length; reflexivity).
  pose proof (C90_section_count ops (cf_segment c) (good_ok _ Hg)) as S. pose proof (run_ops_len _ _ _ _ (ops_ok_nonneg _ (good_ok _ Hg)) Hrun) as L. rewrite (@zlen_nil Z) in L. cbn [app] in L. replace (ops_len ops) with (zlen trgt) in S by lia. lia.
Qed.

(** A run of 100, then a block of 16 bytes three times: 34 bytes with target matching, as the formula says; 157 without matching, within the bound of 166. *)
Definition sz_trgt : list Z := rep 7 100 ++ map Z.of_nat (seq 0 16) ++ [77] ++ map Z.of_nat (seq 0 16) ++ [99] ++ map Z.of_nat (seq 0 16).
Definition sz_config (t : option trgt_config) (f : format) : config := mkConfig None t None f 65535 None None.
Example C91_example : Forall is_byte sz_trgt /\
  exists p, encode Release no_codecs (sz_config (Some (mkTC 0 4 None)) Segregated) None sz_trgt = (p, Ok tt) /\
  exists q, encode Release no_codecs (sz_config None Interleaved) None sz_trgt = (q, Ok tt) /\
  zlen q = 157 /\ zlen sz_trgt + 3 * ((zlen sz_trgt + 65534) / 65535) + 13 * (1 + 2 * zlen sz_trgt / clamp_section 65535) = 166 /\
  exists ops, (exists h, read_section Release p = Ok (ops, h, [])) /\ zlen p = section_cost Segregated ops /\ zlen p = 34.
Proof.
  split; [apply byteb_ok; vm_compute; reflexivity|].
  eexists; split; [vm_compute; reflexivity|]. eexists; split; [vm_compute; reflexivity|]. split; [vm_compute; reflexivity|]. split; [vm_compute; reflexivity|].
  eexists; split; [eexists; vm_compute; reflexivity|]. split; vm_compute; reflexivity.
Qed.
(** One section in each format, written with the API: the operations take the same number of bytes. *)
Example C91_written_example : let ops := [Add [1; 2; 3]; Copy Dict 5000 70; Run 9 4; Copy Output 1 63; Copy Dict 4990 8] in
  let hi := mkHeader 0 Interleaved true 5 3 148 in let hs := mkHeader 0 Segregated false 5 3 148 in
  exists p, written Debug [(ops, hi); (ops, hs)] p /\ Forall (fun s => section_in Debug s /\ Forall near (fst s)) [(ops, hi); (ops, hs)] /\
    zlen p = section_cost Interleaved ops + section_cost Segregated ops /\ section_cost Segregated ops = section_cost Interleaved ops + 1 /\ ops_cost 0 0 ops = 16.
Proof.
  cbv zeta. eexists. split.
  { eapply written_more; [reflexivity|vm_compute; reflexivity|vm_compute; reflexivity|]. eapply written_last; [reflexivity|vm_compute; reflexivity|vm_compute; reflexivity]. }
  split; [|split; [vm_compute; reflexivity|split; vm_compute; reflexivity]].
  assert (G : forall f b, section_in Debug ([Add [1; 2; 3]; Copy Dict 5000 70; Run 9 4; Copy Output 1 63; Copy Dict 4990 8], mkHeader 0 f b 5 3 148) /\ Forall near [Add [1; 2; 3]; Copy Dict 5000 70; Run 9 4; Copy Output 1 63; Copy Dict 4990 8]).
  { intros f b. split; [|repeat constructor; cbn; lia]. split; [repeat constructor; cbn; unfold is_byte; lia|]. split; [repeat constructor; cbn; lia|]. split; [repeat split; cbn; lia|]. right. cbn. lia. }
  constructor; [apply G|]. constructor; [apply G|constructor].
Qed.
Print Assumptions C90_fewest_sections.
Print Assumptions C90_section_count.
Print Assumptions C91_written_size.
Print Assumptions C91_encoded_size.
Print Assumptions C91_size_bound.
Print Assumptions C91_no_matching_bound.
