(** Property C92: memory requested while reading. *)
From Verif Require Import Base Spec MCommon MWriter MReader MAlloc PBase PCommon PStream PSection PWriter.
Ltac Zify.zify_post_hook ::= idtac.
Arguments Z.add : simpl never.
Arguments Z.sub : simpl never.
Arguments Z.mul : simpl never.
Arguments Z.pow : simpl never.

(** Operations asked for by the largest request, and literal bytes asked for altogether. *)
Definition slots (q : list request) : Z := fold_right (fun r t => match r with Slots n => Z.max n t | _ => t end) 0 q.
Definition literal_bytes (q : list request) : Z := fold_right (fun r t => match r with Bytes n => n + t | _ => t end) 0 q.
Lemma literal_bytes_app a b : literal_bytes (a ++ b) = literal_bytes a + literal_bytes b.
Proof. unfold literal_bytes. induction a as [|[n|n] a IH]; cbn [app fold_right]; [lia|exact IH|]. rewrite IH. lia. Qed.

Lemma abind_snd {T U} (x : A T) (f : T -> A U) : snd (abind x f) = (do v <- snd x; snd (f v)).
Proof. destruct x as [q [v|e| |]]; cbn; try reflexivity. destruct (f v). reflexivity. Qed.
Lemma abind_ret {T U} (v : T) (f : T -> A U) : abind (aret (Ok v)) f = f v.
Proof. unfold abind, aret. destruct (f v). reflexivity. Qed.
Lemma read_op_a_snd m d o i bs : snd (read_op_a m d o i bs) = read_op m d o i bs.
Proof.
  unfold read_op_a, read_op. rewrite abind_snd. cbn [aret snd]. destruct (read_op_byte bs) as [[[ot sz] r]|e| |]; cbn [bind]; try reflexivity.
  rewrite abind_snd. cbn [aret snd]. destruct (match ot with TRun => _ | _ => _ end) as [u|e| |]; cbn [bind]; try reflexivity.
  rewrite abind_snd. cbn [aret snd]. destruct (match sz with Done n => _ | _ => _ end) as [[n r']|e| |]; cbn [bind]; try reflexivity.
  destruct ot; [reflexivity| |reflexivity]. rewrite abind_snd. cbn [ask snd bind]. destruct i; reflexivity.
Qed.
Lemma read_ops_loop_a_snd m f : forall k n d o cs nadd bs, snd (read_ops_loop_a k m f n d o cs nadd bs) = read_ops_loop k m f n d o cs nadd bs.
Proof.
  induction k as [|k IH]; intros n d o cs nadd bs; cbn [read_ops_loop_a read_ops_loop]; destruct (n <=? 0); try reflexivity.
  rewrite abind_snd, read_op_a_snd. destruct (read_op m d o (negb (is_segregated f)) bs) as [[[[x d'] o'] r]|e| |]; cbn [bind]; try reflexivity.
  rewrite abind_snd. cbn [aret snd]. destruct (arith m to_u32 (cs + oal x)) as [cs'|e| |]; cbn [bind]; try reflexivity.
  rewrite abind_snd. cbn [aret snd]. destruct (if is_segregated f && is_add x then _ else _) as [nadd'|e| |]; cbn [bind]; try reflexivity.
  rewrite abind_snd, IH. destruct (read_ops_loop k m f (n - 1) d' o' cs' nadd' r) as [[[[l c] a] r2]|e| |]; reflexivity.
Qed.
Lemma read_ops_a_snd m h bs : snd (read_ops_no_comp_a m h bs) = read_ops_no_comp m h bs.
Proof.
  unfold read_ops_no_comp_a, read_ops_no_comp. rewrite abind_snd. cbn [ask snd bind]. rewrite abind_snd, read_ops_loop_a_snd.
  destruct (read_ops_loop (S (length bs)) m (h_format h) (h_nops h) 0 0 0 (h_nadd h) bs) as [[[[l c] a] r]|e| |]; reflexivity.
Qed.
(** C92. Counting requests changes no result. *)
Theorem C92_same_result : forall m bs, snd (read_section_a m bs) = read_section m bs.
Proof.
  intros m bs. unfold read_section_a, read_section. rewrite abind_snd. cbn [aret snd]. destruct (read_section_header m bs) as [[h r]|e| |]; cbn [bind]; try reflexivity.
  rewrite abind_snd. cbn [ask snd bind]. apply read_ops_a_snd.
Qed.

(** ** Literal bytes *)
Lemma read_op_byte_len bs ot sz r : read_op_byte bs = Ok (ot, sz, r) -> zlen bs = 1 + zlen r /\ (forall n, sz = Done n -> 0 <= n <= 62).
Proof.
  unfold read_op_byte. destruct bs as [|b bs]; cbn [read_u8 bind]; [discriminate|]. intro H. rewrite zlen_cons.
  assert (E : sz = size_routine (Z.land b SIZE_MASK) /\ r = bs).
  { destruct (Z.land b OP_MASK =? COPY_D); [injection H as _ <- <-; auto|]. destruct (Z.land b OP_MASK =? COPY_O); [injection H as _ <- <-; auto|]. destruct (Z.land b OP_MASK =? ADD); [injection H as _ <- <-; auto|]. destruct (Z.land b OP_MASK =? RUN); [injection H as _ <- <-; auto|discriminate]. }
  destruct E as [-> ->]. split; [reflexivity|]. intros n E. unfold size_routine in E. destruct ((1 <=? Z.land b SIZE_MASK) && (Z.land b SIZE_MASK <=? 62)) eqn:C; [|destruct (Z.land b SIZE_MASK =? 63); discriminate]. injection E as <-. lia.
Qed.
Lemma read_op_a_bytes m d o i bs : Forall is_byte bs -> let '(q, r) := read_op_a m d o i bs in
  0 <= literal_bytes q <= 21845 * (zlen bs - match r with Ok (_, _, _, rest) => zlen rest | _ => 0 end) /\ slots q = 0.
Proof.
  intro Hb. unfold read_op_a. pose proof (zlen_nonneg bs) as H0.
  destruct (read_op_byte bs) as [[[ot sz] r]|e| |] eqn:E1; try (cbn; lia). rewrite abind_ret. destruct (read_op_byte_len bs ot sz r E1) as [L1 Ld].
  pose proof (zlen_nonneg r) as H1.
  assert (Hbr : Forall is_byte r).
  { unfold read_op_byte in E1. destruct bs as [|b bs]; cbn [read_u8 bind] in E1; [discriminate|]. inversion Hb; subst. destruct (Z.land b OP_MASK =? COPY_D); [injection E1 as _ _ <-; assumption|]. destruct (Z.land b OP_MASK =? COPY_O); [injection E1 as _ _ <-; assumption|]. destruct (Z.land b OP_MASK =? ADD); [injection E1 as _ _ <-; assumption|]. destruct (Z.land b OP_MASK =? RUN); [injection E1 as _ _ <-; assumption|discriminate]. }
  destruct (match ot, sz with TRun, Done _ => Ok tt | TRun, _ => Err InvalidData | _, _ => Ok tt end) as [u|e| |]; try (cbn; lia). rewrite abind_ret.
  destruct (match sz with Done n => Ok (n, r) | U8And62 => do (b, bs) <- read_u8 r; Ok (b + 62, bs) | U16 => read_u16 r end) as [[n r']|e| |] eqn:E2; try (cbn; lia). rewrite abind_ret.
  assert (Hn : 0 <= n <= 21845 * (zlen bs - zlen r') /\ zlen r' <= zlen r).
  { destruct sz as [n0| |].
    - injection E2 as <- <-. specialize (Ld n0 eq_refl). lia.
    - destruct r as [|b r]; cbn [read_u8 bind] in E2; [discriminate|]. injection E2 as <- <-. inversion Hbr as [|? ? Hx _]; subst. unfold is_byte in Hx. rewrite zlen_cons in *. lia.
    - destruct r as [|lo [|hi r]]; cbn [read_u16] in E2; try discriminate. injection E2 as <- <-. inversion Hbr as [|? ? Hx Hb2]; subst. inversion Hb2 as [|? ? Hy _]; subst. unfold is_byte in *. rewrite !zlen_cons in *. lia. }
  destruct Hn as [Hn Hr']. pose proof (zlen_nonneg r') as H2.
  assert (EX : forall k (c : list Z) rest, read_exact k r' = Ok (c, rest) -> zlen rest <= zlen r').
  { intros k c rest E. destruct (streaming_exact k r' c rest E) as (cc & -> & _). rewrite zlen_app. pose proof (zlen_nonneg cc). lia. }
  destruct ot as [s| |]; cbn [aret abind ask].
  - split; [|reflexivity]. cbn [literal_bytes fold_right]. destruct (read_i_varint m r') as [[v r2]|e| |] eqn:E3; cbn [bind]; try lia.
    assert (zlen r2 <= zlen r') by (destruct (streaming_i_varint m r' v r2 E3) as (cc & -> & _); rewrite zlen_app; pose proof (zlen_nonneg cc); lia).
    destruct s; [destruct (diff_addresses_to_u64 m d v)|destruct (diff_addresses_to_u64 m o v)]; cbn [bind]; lia.
  - destruct i; cbn [app]; (split; [|reflexivity]); cbn [literal_bytes fold_right]; [|lia]. destruct (read_exact n r') as [[c rest]|e| |] eqn:E3; cbn [bind]; try lia. specialize (EX n c rest E3). lia.
  - split; [|reflexivity]. cbn [literal_bytes fold_right]. destruct r' as [|x r']; cbn [read_u8 bind]; rewrite ?zlen_cons in *; lia.
Qed.
Lemma slots_app a b : slots (a ++ b) = Z.max (slots a) (slots b).
Proof.
  assert (P : forall l, 0 <= slots l) by (unfold slots; induction l as [|[n|n] l IH]; cbn [fold_right]; lia).
  unfold slots. induction a as [|[n|n] a IH]; cbn [app fold_right]; [specialize (P b); unfold slots in P; lia|rewrite IH; lia|exact IH].
Qed.
Lemma read_loop_a_bytes m f : forall k n d o cs nadd bs, Forall is_byte bs -> let '(q, r) := read_ops_loop_a k m f n d o cs nadd bs in
  0 <= literal_bytes q <= 21845 * (zlen bs - match r with Ok (_, _, _, rest) => zlen rest | _ => 0 end) /\ slots q = 0.
Proof.
  induction k as [|k IH]; intros n d o cs nadd bs Hb; cbn [read_ops_loop_a]; pose proof (zlen_nonneg bs); destruct (n <=? 0); try (cbn; lia).
  pose proof (read_op_a_bytes m d o (negb (is_segregated f)) bs Hb) as R. pose proof (read_op_a_snd m d o (negb (is_segregated f)) bs) as Rs. destruct (read_op_a m d o (negb (is_segregated f)) bs) as [q r]. cbn [snd] in Rs.
  destruct r as [[[[x d'] o'] r]|e| |]; cbn [abind]; try exact R. destruct R as [R1 R2]. symmetry in Rs.
  destruct (streaming_op m d o (negb (is_segregated f)) bs _ _ Rs) as (c & Ec & _).
  assert (Hbr : Forall is_byte r) by (rewrite Ec in Hb; apply Forall_app in Hb as [_ Hb]; exact Hb). pose proof (zlen_nonneg r) as Hr0.
  destruct (arith m to_u32 (cs + oal x)) as [cs'|e| |]; cbn [aret abind]; rewrite ?app_nil_r; try (split; [lia|exact R2]).
  destruct (if is_segregated f && is_add x then arith m to_u32 (nadd + oal x) else Ok nadd) as [nadd'|e| |]; cbn [aret abind app]; rewrite ?app_nil_r; try (split; [lia|exact R2]).
  specialize (IH (n - 1) d' o' cs' nadd' r Hbr). destruct (read_ops_loop_a k m f (n - 1) d' o' cs' nadd' r) as [q' r']. destruct IH as [I1 I2].
  destruct r' as [[[[l c2] a2] r2]|e| |]; cbn [aret abind app]; rewrite ?app_nil_r, literal_bytes_app, slots_app; lia.
Qed.
(** C92. The memory asked for literals is at most 21845 times the bytes of the patch, also when reading fails. *)
Theorem C92_literals_bounded : forall m bs, Forall is_byte bs -> 0 <= literal_bytes (fst (read_section_a m bs)) <= 21845 * zlen bs.
Proof.
  intros m bs Hb. pose proof (zlen_nonneg bs). unfold read_section_a. destruct (read_section_header m bs) as [[h r]|e| |] eqn:E; try (cbn; lia). rewrite abind_ret.
  destruct (streaming_header m bs _ _ E) as (c & -> & _). apply Forall_app in Hb as [_ Hb]. rewrite zlen_app. pose proof (zlen_nonneg c). pose proof (zlen_nonneg r).
  unfold read_ops_no_comp_a. cbn [ask abind]. pose proof (read_loop_a_bytes m (h_format h) (S (length r)) (h_nops h) 0 0 0 (h_nadd h) r Hb) as L.
  destruct (read_ops_loop_a (S (length r)) m (h_format h) (h_nops h) 0 0 0 (h_nadd h) r) as [q x]. destruct L as [L _].
  destruct x as [[[[l c2] a2] r2]|e| |]; cbn [abind aret fst app]; rewrite ?app_nil_r; cbn [literal_bytes fold_right]; change (fold_right (fun r t => match r with Bytes n => n + t | _ => t end) 0 q) with (literal_bytes q); try lia. pose proof (zlen_nonneg r2). lia.
Qed.
(** C92. The room asked for operations is whatever count the header states, before any operation is read. *)
Theorem C92_slots_exact : forall m bs h rest, read_section_header m bs = Ok (h, rest) -> 0 <= h_nops h ->
  slots (fst (read_section_a m bs)) = h_nops h /\ exists q, fst (read_section_a m bs) = Slots (h_nops h) :: q.
Proof.
  intros m bs h r E Hn. unfold read_section_a. rewrite E, abind_ret. unfold read_ops_no_comp_a. cbn [ask abind].
  assert (Ls : slots (fst (read_ops_loop_a (S (length r)) m (h_format h) (h_nops h) 0 0 0 (h_nadd h) r)) = 0).
  { assert (P : forall k n d o cs nadd bs, slots (fst (read_ops_loop_a k m (h_format h) n d o cs nadd bs)) = 0).
    { induction k as [|k IH]; intros n d o cs nadd b; cbn [read_ops_loop_a]; destruct (n <=? 0); try reflexivity.
      assert (Q : forall d o i b, slots (fst (read_op_a m d o i b)) = 0).
      { clear. intros d o i b. unfold read_op_a. destruct (read_op_byte b) as [[[ot sz] r]|e| |]; try reflexivity. rewrite abind_ret.
        destruct (match ot, sz with TRun, Done _ => Ok tt | TRun, _ => Err InvalidData | _, _ => Ok tt end) as [u|e| |]; try reflexivity. rewrite abind_ret.
        destruct (match sz with Done n => Ok (n, r) | U8And62 => do (b, bs) <- read_u8 r; Ok (b + 62, bs) | U16 => read_u16 r end) as [[n r']|e| |]; try reflexivity. rewrite abind_ret. destruct ot; [reflexivity| |reflexivity]. destruct i; reflexivity. }
      specialize (Q d o (negb (is_segregated (h_format h))) b). destruct (read_op_a m d o (negb (is_segregated (h_format h))) b) as [q x]. cbn [fst] in Q. destruct x as [[[[x d'] o'] r']|e| |]; cbn [abind fst]; try exact Q.
      destruct (arith m to_u32 (cs + oal x)) as [cs'|e| |]; cbn [aret abind fst]; rewrite ?app_nil_r; try exact Q.
      destruct (if is_segregated (h_format h) && is_add x then arith m to_u32 (nadd + oal x) else Ok nadd) as [nadd'|e| |]; cbn [aret abind fst app]; rewrite ?app_nil_r; try exact Q.
      specialize (IH (n - 1) d' o' cs' nadd' r'). destruct (read_ops_loop_a k m (h_format h) (n - 1) d' o' cs' nadd' r') as [q' y]. cbn [fst] in IH. destruct y as [[[[l c2] a2] r2]|e| |]; cbn [aret abind app fst]; rewrite ?app_nil_r, slots_app; lia. }
    apply P. }
  destruct (read_ops_loop_a (S (length r)) m (h_format h) (h_nops h) 0 0 0 (h_nadd h) r) as [q x]. cbn [fst] in Ls.
  destruct x as [[[[l c2] a2] r2]|e| |]; cbn [abind aret fst app]; rewrite ?app_nil_r; cbn [slots fold_right]; change (fold_right (fun r t => match r with Slots n => Z.max n t | _ => t end) 0 q) with (slots q); rewrite Ls; (split; [lia|eexists; reflexivity]).
Qed.
Lemma read_loop_count m f : forall k n d o cs nadd bs ops cs' nadd' rest, read_ops_loop k m f n d o cs nadd bs = Ok (ops, cs', nadd', rest) ->
  (length ops + length rest <= length bs)%nat /\ zlen ops = Z.max 0 n.
Proof.
  induction k as [|k IH]; intros n d o cs nadd bs ops cs' nadd' rest H; cbn [read_ops_loop] in H; destruct (n <=? 0) eqn:E; try discriminate; try (injection H as <- _ _ <-; cbn [length]; change (zlen (@nil op)) with 0; split; lia).
  apply bind_ok in H as ([[[x d'] o'] r] & E1 & H). apply bind_ok in H as (c1 & _ & H). apply bind_ok in H as (a1 & _ & H). apply bind_ok in H as ([[[l c2] a2] r2] & E2 & H). injection H as <- _ _ <-.
  apply read_op_consumes in E1. destruct (IH _ _ _ _ _ _ _ _ _ _ E2) as [I1 I2]. cbn [length]. rewrite zlen_cons. split; lia.
Qed.
(** C92. If reading succeeds, what was asked for is no more than the bytes of the section read. *)
Theorem C92_success_bounded : forall m bs ops h rest, Forall is_byte bs -> read_section m bs = Ok (ops, h, rest) ->
  slots (fst (read_section_a m bs)) = zlen ops /\ zlen ops <= zlen bs - zlen rest.
Proof.
  intros m bs ops h rest Hb H. pose proof (read_section_ok m bs ops h rest Hb H) as (R1 & _). unfold read_section in H. apply bind_ok in H as ([h0 r] & Eh & H).
  assert (En : h_nops h = h_nops h0 /\ (length ops + length rest <= length r)%nat).
  { unfold read_ops_no_comp in H. apply bind_ok in H as ([[[l c2] a2] r2] & El & H). destruct (read_loop_count _ _ _ _ _ _ _ _ _ _ _ _ _ El) as [C _]. destruct (negb (c2 =? h_osize h0)); [discriminate H|]. destruct (h_format h0).
    - injection H as <- <- <-. split; [reflexivity|lia].
    - apply bind_ok in H as ([l' r'] & Ef & H). injection H as <- <- <-. split; [reflexivity|]. assert (F : forall l bs l' r, fill_adds l bs = Ok (l', r) -> length l' = length l /\ (length r <= length bs)%nat).
      { clear. induction l as [|x l IH]; intros bs l' r H; cbn [fill_adds] in H; [injection H as <- <-; auto|]. destruct x as [z|b n|s a n].
        - apply bind_ok in H as ([c r1] & E1 & H). apply bind_ok in H as ([l1 r2] & E2 & H). injection H as <- <-. destruct (IH _ _ _ E2). destruct (streaming_exact (zlen z) bs c r1 E1) as (cc & -> & _). rewrite app_length. cbn [length]. lia.
        - apply bind_ok in H as ([l1 r2] & E2 & H). injection H as <- <-. destruct (IH _ _ _ E2). cbn [length]. lia.
        - apply bind_ok in H as ([l1 r2] & E2 & H). injection H as <- <-. destruct (IH _ _ _ E2). cbn [length]. lia. }
      destruct (F _ _ _ _ Ef). lia. }
  destruct En as [En Hl]. destruct (C92_slots_exact m bs h0 r Eh) as [S _]; [rewrite <- En, <- R1; apply zlen_nonneg|]. rewrite S, <- En, <- R1. split; [reflexivity|].
  destruct (streaming_header m bs _ _ Eh) as (c & -> & _). rewrite zlen_app. pose proof (zlen_nonneg c). unfold zlen in *. lia.
Qed.
(** C92. That reading asks for memory in proportion to the bytes it is given is refuted: 7 bytes make it reserve room for 2^32 - 1 operations before it
    notices that there is none. *)
Theorem C92_refuted : exists bs, zlen bs = 7 /\ Forall is_byte bs /\ forall m, read_section_a m bs = ([Slots (2 ^ 32 - 1); Slots (2 ^ 32 - 1)], Err EOF).
Proof. exists [0; 255; 255; 255; 255; 15; 0]. split; [reflexivity|]. split; [apply byteb_ok; reflexivity|]. intros []; vm_compute; reflexivity. Qed.
(** A literal of 65535 bytes (all zero in a segregated section) announced in 3 bytes is allocated although the bytes are missing. *)
Example C92_example : read_section_a Debug [64; 1; 255; 255; 3; 0; 128; 255; 255] = ([Slots 1; Slots 1; Bytes 65535], Err EOF).
Proof. vm_compute. reflexivity. Qed.
Example C92_success_example : exists ops h, read_section Debug [0; 1; 2; 130; 5; 6] = Ok (ops, h, []) /\ read_section_a Debug [0; 1; 2; 130; 5; 6] = ([Slots 1; Slots 1; Bytes 2], Ok (ops, h, [])).
Proof. eexists; eexists. split; vm_compute; reflexivity. Qed.
Print Assumptions C92_same_result.
Print Assumptions C92_literals_bounded.
Print Assumptions C92_slots_exact.
Print Assumptions C92_success_bounded.
Print Assumptions C92_refuted.
