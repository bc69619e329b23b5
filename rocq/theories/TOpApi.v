(** The helper functions of operations. Property C119. *)
From Verif Require Import Base Spec MCommon MReader MWriter MOpApi PBase PCommon.
Ltac Zify.zify_post_hook ::= idtac.
Arguments Z.land : simpl never.
Arguments Z.lor : simpl never.

(** ** Specification: the two high bits of the operation byte as in the format, 00 copy from the dictionary, 01 copy from the output, 10 add, 11 run *)
Definition kind_bits (o : op) : Z := match o with Copy Dict _ _ => 0 | Copy Output _ _ => 1 | Add _ => 2 | Run _ _ => 3 end.
Definition kind (o : op) : op_type := match o with Copy s _ _ => TCopy s | Add _ => TAdd | Run _ _ => TRun end.
(** Fields an operation value can have in memory (u8, u16, u64). *)
Definition op_fields (o : op) : Prop := match o with Add _ => True | Run _ n => 0 <= n < 256 | Copy _ a n => 0 <= a < 2 ^ 64 /\ 0 <= n < 65536 end.

Lemma byte_split k n : 0 <= k <= 3 -> 0 <= n < 64 -> let b := Z.lor (64 * k) n in b = 64 * k + n /\ Z.land b OP_MASK = 64 * k /\ Z.land b SIZE_MASK = n /\ 0 <= b < 256.
Proof.
  intros Hk Hn. cbv zeta.
  assert (C : forallb (fun k => forallb (fun n => let b := Z.lor (64 * k) n in (b =? 64 * k + n) && (Z.land b OP_MASK =? 64 * k) && (Z.land b SIZE_MASK =? n)) (map Z.of_nat (seq 0 64))) [0; 1; 2; 3] = true) by (vm_compute; reflexivity).
  rewrite forallb_forall in C. specialize (C k). assert (Hin : In k [0; 1; 2; 3]) by (cbn [In]; lia). specialize (C Hin). rewrite forallb_forall in C. specialize (C n).
  assert (Hn' : In n (map Z.of_nat (seq 0 64))) by (apply in_map_iff; exists (Z.to_nat n); split; [lia|apply in_seq; lia]). specialize (C Hn'). cbv zeta in C. apply andb_true_iff in C as [C C3]. apply andb_true_iff in C as [C1 C2]. lia.
Qed.

(** C119. Every operation is of exactly one kind; [take_copy] gives the copy exactly if it is one; [oal] is the number of bytes the operation makes, unless it is a literal of more than 65535 bytes, where it is that
    number modulo 65536. *)
Theorem C119_kinds o :
  (is_add_op o = true <-> exists bs, o = Add bs) /\ (is_run o = true <-> exists b n, o = Run b n) /\ (is_copy_op o = true <-> exists s a n, o = Copy s a n) /\
  (forall s a n, take_copy o = Some (s, a, n) <-> o = Copy s a n) /\ (take_copy o = None <-> is_copy_op o = false) /\
  (op_fields o -> oal o = op_len o mod 65536 /\ (op_len o <= 65535 <-> oal o = op_len o)).
Proof.
  split; [|split; [|split; [|split; [|split]]]].
  - destruct o; cbn; split; intro H; try discriminate; eauto; destruct H as [? H]; discriminate H.
  - destruct o; cbn; split; intro H; try discriminate; eauto; destruct H as (? & ? & H); discriminate H.
  - destruct o; cbn; split; intro H; try discriminate; eauto; destruct H as (? & ? & ? & H); discriminate H.
  - intros s a n. destruct o; cbn; split; intro H; try discriminate H; congruence.
  - destruct o; cbn; split; intro H; try discriminate H; reflexivity.
  - intro F. assert (E : oal o = op_len o mod 65536).
    { destruct o as [bs|b n|s a n]; cbn [oal op_len op_fields] in *; [reflexivity| |]; symmetry; apply Z.mod_small; lia. }
    split; [exact E|]. assert (H0 : 0 <= op_len o) by (destruct o as [bs|b n|s a n]; cbn [op_len op_fields] in *; [apply zlen_nonneg|lia|lia]). rewrite E.
    pose proof (Z.mod_pos_bound (op_len o) 65536 ltac:(lia)) as Hm. split; intro H; [apply Z.mod_small; lia|lia].
Qed.
(** C119. When the writer writes an operation's byte and size, what it writes is one byte with the kind ([bit_flag], the two high bits) and [size_overhead (size_routine oal)] further bytes; the reader finds the kind there and
    the same number of bytes to read. Only runs that are empty or longer than 62 are not written: a panic, before any byte. *)
Theorem C119_operation_byte o : op_fields o ->
  match write_op_byte_and_size o with
  | (b, Ok _) => exists first rest, b = first :: rest /\ 0 <= first < 256 /\ bit_flag o = 64 * kind_bits o /\ Z.land first OP_MASK = bit_flag o /\ first / 64 = kind_bits o /\
      zlen rest = size_overhead (size_routine (oal o)) /\ (forall bs, read_op_byte (b ++ bs) = Ok (kind o, size_routine (oal o), rest ++ bs)) /\
      (size_overhead (size_routine (oal o)) = 0 <-> 1 <= oal o <= 62)
  | (b, Panic) => b = [] /\ exists v n, o = Run v n /\ (n = 0 \/ 62 < n)
  | _ => False
  end.
Proof.
  intro F. assert (Ho : 0 <= oal o < 65536) by (destruct o as [bs|b n|s a n]; cbn [oal op_fields] in *; [apply Z.mod_pos_bound; lia|lia|lia]).
  assert (Ek : bit_flag o = 64 * kind_bits o) by (destruct o as [bs|b n|[] a n]; reflexivity).
  assert (Hk : 0 <= kind_bits o <= 3) by (destruct o as [bs|b n|[] a n]; cbn [kind_bits]; lia).
  assert (Hrd : forall first n rest, Z.land first OP_MASK = bit_flag o -> Z.land first SIZE_MASK = n -> size_routine n = size_routine (oal o) -> forall bs, read_op_byte ((first :: rest) ++ bs) = Ok (kind o, size_routine (oal o), rest ++ bs)).
  { intros first n rest H1 H2 H3 bs. unfold read_op_byte. cbn [app read_u8 bind]. rewrite H1, H2, H3. destruct o as [b|b k|[] a k]; reflexivity. }
  assert (Hru : is_run o = true -> exists v n, o = Run v n /\ oal o = n) by (destruct o as [b|b k|s a k]; cbn [is_run oal]; intro H; try discriminate; eauto).
  unfold write_op_byte_and_size. destruct (is_run o) eqn:Er.
  - destruct (Hru eq_refl) as (v & n & Eo & En). unfold assert_. destruct (oal o <=? 62) eqn:E62; cbn [wlift wbind app].
    2: { split; [reflexivity|]. exists v, n. split; [exact Eo|lia]. }
    unfold size_routine at 1. destruct ((1 <=? oal o) && (oal o <=? 62)) eqn:E1.
    + unfold write_u8, wput. destruct (byte_split (kind_bits o) (oal o) Hk ltac:(lia)) as (B1 & B2 & B3 & B4). cbv zeta in *. rewrite <- Ek in *.
      exists (Z.lor (bit_flag o) (oal o)), []. split; [reflexivity|]. split; [exact B4|]. split; [reflexivity|]. split; [exact B2|]. split.
      { rewrite B1, Ek. replace (64 * kind_bits o) with (kind_bits o * 64) by lia. rewrite Z.div_add_l, Z.div_small by lia. lia. }
      assert (Es : size_routine (oal o) = Done (oal o)) by (unfold size_routine; rewrite E1; reflexivity). split; [rewrite Es; reflexivity|]. split; [apply (Hrd _ (oal o)); [exact B2|exact B3|reflexivity]|]. rewrite Es. cbn [size_overhead]. split; lia.
    + replace (oal o =? 63) with false by lia. cbn [negb wlift wbind app]. split; [reflexivity|]. exists v, n. split; [exact Eo|lia].
  - unfold assert_ at 1. cbn [wlift wbind app]. unfold size_routine at 1. destruct ((1 <=? oal o) && (oal o <=? 62)) eqn:E1; [|destruct (oal o =? 63) eqn:E2].
    + unfold write_u8, wput. destruct (byte_split (kind_bits o) (oal o) Hk ltac:(lia)) as (B1 & B2 & B3 & B4). cbv zeta in *. rewrite <- Ek in *.
      exists (Z.lor (bit_flag o) (oal o)), []. split; [reflexivity|]. split; [exact B4|]. split; [reflexivity|]. split; [exact B2|]. split.
      { rewrite B1, Ek. replace (64 * kind_bits o) with (kind_bits o * 64) by lia. rewrite Z.div_add_l, Z.div_small by lia. lia. }
      assert (Es : size_routine (oal o) = Done (oal o)) by (unfold size_routine; rewrite E1; reflexivity). split; [rewrite Es; reflexivity|]. split; [apply (Hrd _ (oal o)); [exact B2|exact B3|reflexivity]|]. rewrite Es. cbn [size_overhead]. split; lia.
    + unfold assert_, write_u8, wput. cbn [negb wlift wbind app]. destruct (byte_split (kind_bits o) 63 Hk ltac:(lia)) as (B1 & B2 & B3 & B4). cbv zeta in *. rewrite <- Ek in *. 
      exists (Z.lor (bit_flag o) 63), [to_u8 (oal o - 62)]. split; [reflexivity|]. split; [exact B4|]. split; [reflexivity|]. split; [exact B2|]. split.
      { rewrite B1, Ek. replace (64 * kind_bits o) with (kind_bits o * 64) by lia. rewrite Z.div_add_l, Z.div_small by lia. lia. }
      assert (Es : size_routine (oal o) = U8And62) by (unfold size_routine; rewrite E1, E2; reflexivity). split; [rewrite Es; reflexivity|]. split; [exact (Hrd (Z.lor (bit_flag o) 63) 63 [to_u8 (oal o - 62)] B2 B3 (eq_sym Es))|]. rewrite Es. cbn [size_overhead]. split; lia.
    + unfold assert_, write_u8, write_u16, wput. cbn [negb wlift wbind app]. destruct (byte_split (kind_bits o) 0 Hk ltac:(lia)) as (B1 & B2 & B3 & B4). cbv zeta in *. rewrite <- Ek, Z.lor_0_r in *.
      exists (bit_flag o), [oal o mod 256; oal o / 256]. split; [reflexivity|]. split; [exact B4|]. split; [reflexivity|]. split; [exact B2|]. split.
      { rewrite Ek. replace (64 * kind_bits o) with (kind_bits o * 64) by lia. rewrite Z.div_mul by lia. reflexivity. }
      assert (Es : size_routine (oal o) = U16) by (unfold size_routine; rewrite E1, E2; reflexivity). split; [rewrite Es; reflexivity|]. split; [exact (Hrd (bit_flag o) 0 [oal o mod 256; oal o / 256] B2 B3 (eq_sym Es))|]. rewrite Es. cbn [size_overhead]. split; lia.
Qed.
(** C119, finding: "the total number of bytes this operation will generate in the output stream" is wrong for long literals: for one of 65536 bytes [oal] is 0, and the writer writes it as a literal of no bytes. *)
Theorem C119_oal_wrong : exists bs, Forall is_byte bs /\ zlen bs = 65536 /\ oal (Add bs) = 0 /\ op_len (Add bs) = 65536 /\ write_op_byte_and_size (Add bs) = ([128; 0; 0], Ok tt).
Proof.
  exists (rep 7 65536). assert (Hl : zlen (rep 7 65536) = 65536) by (rewrite zlen_rep; lia). split; [apply Forall_forall; intros x Hx; apply repeat_spec in Hx as ->; unfold is_byte; lia|]. split; [exact Hl|].
  assert (E : oal (Add (rep 7 65536)) = 0) by (cbn [oal]; rewrite Hl; reflexivity). split; [exact E|]. split; [exact Hl|].
  unfold write_op_byte_and_size. cbn [is_run bit_flag]. rewrite E. reflexivity.
Qed.

(** ** Beside the theorems *)
Example C119_kinds_example : op_fields (Copy Output 5 70) /\ take_copy (Copy Output 5 70) = Some (Output, 5, 70) /\ oal (Copy Output 5 70) = 70 /\ take_copy (Run 1 2) = None.
Proof. repeat split; vm_compute; (reflexivity || discriminate). Qed.
Example C119_operation_byte_example :
  write_op_byte_and_size (Copy Output 5 62) = ([64 + 62], Ok tt) /\ write_op_byte_and_size (Copy Dict 5 63) = ([63; 1], Ok tt) /\ write_op_byte_and_size (Copy Dict 5 70) = ([0; 70; 0], Ok tt) /\
  write_op_byte_and_size (Run 7 62) = ([192 + 62], Ok tt) /\ write_op_byte_and_size (Run 7 63) = ([], Panic) /\ write_op_byte_and_size (Run 7 0) = ([], Panic) /\
  read_op_byte [63; 1; 9] = Ok (TCopy Dict, U8And62, [1; 9]) /\ size_overhead (size_routine 70) = 2.
Proof. repeat split. Qed.
Print Assumptions C119_kinds.
Print Assumptions C119_operation_byte.
Print Assumptions C119_oal_wrong.
