(** C111: which sections the reader accepts, exactly. *)
From Verif Require Import Base Spec SpecFmt SpecAcc MCommon MWriter MReader PBase PCommon PSection PFormat PAcc.
Ltac Zify.zify_post_hook ::= idtac.
Arguments Z.add : simpl never.
Arguments Z.sub : simpl never.
Arguments Z.mul : simpl never.
Arguments Z.pow : simpl never.

(** Whatever the bytes are: the reader returns these operations, this header and this rest if and only if the bytes before the rest
    have the layout of SpecAcc.v. *)
Theorem C111_reader_accepts_exactly : forall m bs ops h rest, Forall is_byte bs ->
  (read_section m bs = Ok (ops, h, rest) <-> exists b, bs = b ++ rest /\ section_acc m ops h b).
Proof.
  intros m bs ops h rest Hb. split; [now apply read_section_acc|]. intros (b & -> & H). now apply section_acc_read.
Qed.
(** The same for the numbers alone. *)
Theorem C111_numbers_accepted_exactly : forall m bs v rest, Forall is_byte bs ->
  (read_u_varint m bs = Ok (v, rest) <-> exists b, bs = b ++ rest /\ num64 m b v).
Proof.
  intros m bs v rest Hb. split; [now apply num64_of_read|]. intros (b & -> & H). now apply read_num64.
Qed.
(** Numbers of at most ten bytes are read alike in both builds: the denoted value modulo 2^64. *)
Theorem C111_short_numbers : forall m bs n v, leb bs n -> zlen bs <= 10 -> (num64 m bs v <-> v = n mod 2 ^ 64).
Proof.
  intros m bs n v Hl Hz. split.
  - intro H. apply (read_num64 m bs v []) in H. rewrite (read_u_varint_leb_mod m bs n [] Hl Hz) in H. now injection H as <-.
  - intros ->. destruct (num64_of_read m (bs ++ []) (n mod 2 ^ 64) []) as (b & E & Hb).
    + rewrite app_nil_r. exact (leb_bytes _ _ Hl).
    + now apply read_u_varint_leb_mod.
    + rewrite !app_nil_r in E. now subst b.
Qed.

(** An accepted section need not be a section of the format: a segregated one that declares no literal bytes and has one, an operation count
    of 2^32 + 1 for one operation, a section of more than 2^24 - 1 bytes; and a copy address difference of 2^64. *)
Definition ex_adds : list Z := [64; 1; 0; 1; 129; 7].
Definition ex_count : list Z := [0; 129; 128; 128; 128; 16; 1; 129; 7].
Definition ex_large : list Z := [0; 129; 2; 255; 253; 131; 8] ++ concat (repeat [0; 255; 255; 0] 257).
Definition ex_delta : list Z := [0; 1; 3; 3; 128; 128; 128; 128; 128; 128; 128; 128; 128; 2].

Lemma header_parts v h hb pb c rest : header_enc number v h hb -> hb ++ pb = c :: rest ->
  control_byte v h = c /\ exists b1 r1, rest = b1 ++ r1 /\ number b1 (h_nops h) /\
   match h_format h with
   | Interleaved => exists b2, r1 = b2 ++ pb /\ number b2 (h_osize h)
   | Segregated => exists b2 b3, r1 = b2 ++ b3 ++ pb /\ number b2 (h_nadd h) /\ number b3 (h_osize h - h_nadd h)
   end.
Proof.
  intros H E. destruct H as [b1 b2 Hf N1 N2|b1 b2 b3 Hf N1 N2 N3]; cbn [app] in E; injection E as E1 E2; (split; [exact E1|]); rewrite Hf, <- E2, <- ?app_assoc; eauto 10.
Qed.
Lemma control_format v h c : 0 <= v <= 7 -> 0 <= h_comp h <= 7 -> control_byte v h = c -> c = 64 \/ c = 0 -> h_format h = if c =? 64 then Segregated else Interleaved.
Proof. intros Hv Hh E Hc. unfold control_byte in E. destruct Hc as [-> | ->]; cbn [Z.eqb Pos.eqb]; destruct (h_format h), (h_more h); try reflexivity; lia. Qed.
Lemma leb_two a b : 128 <= a < 256 -> 0 <= b < 128 -> leb [a; b] (a - 128 + 128 * b).
Proof. intros Ha Hb. constructor; [lia|]. constructor. lia. Qed.
Lemma number_at bs n r k bs' r' : leb bs n -> number bs' k -> bs ++ r = bs' ++ r' -> k = n /\ r' = r.
Proof. intros H [H' _] E. destruct (leb_determined bs n H bs' k r r' H' E) as (-> & -> & ->). auto. Qed.
Lemma leb_1 b : 0 <= b < 128 -> leb [b] b. Proof. apply leb_last. Qed.

Theorem C111_accepts_more_than_the_format_refuted : forall m bs, In bs [ex_adds; ex_count; ex_large; ex_delta] ->
  Forall is_byte bs /\ (exists ops h, read_section m bs = Ok (ops, h, [])) /\
  (forall v ops h, 0 <= v <= 7 -> ~ section_enc plain_pack number v (ops, h) bs).
Proof.
  assert (Hbyte : forall bs, forallb byteb bs = true -> Forall is_byte bs) by exact byteb_ok.
  intros m bs H. destruct H as [<-|[<-|[<-|[<-|[]]]]].
  - split; [now apply Hbyte|]. split; [destruct m; eexists _, _; vm_compute; reflexivity|].
    intros v ops h Hv ((Hc & Hn & _ & Ho & _ & Ha) & hb & bb & pb & Hh & Hb & (Hp & ->) & E). cbn [fst snd] in *.
    destruct (header_parts v h hb bb _ _ Hh (eq_sym E)) as (Hcb & b1 & r1 & E1 & N1 & Hr). rewrite (control_format v h 64 Hv Hc Hcb (or_introl eq_refl)) in *. cbn [Z.eqb Pos.eqb] in *.
    destruct Hr as (b2 & b3 & -> & N2 & N3). specialize (Ha eq_refl).
    destruct (number_at [1] 1 [0; 1; 129; 7] _ _ _ (leb_1 1 ltac:(lia)) N1 E1) as [K1 R1]. symmetry in R1.
    destruct (number_at [0] 0 [1; 129; 7] _ _ _ (leb_1 0 ltac:(lia)) N2 R1) as [K2 R2]. symmetry in R2.
    destruct (number_at [1] 1 [129; 7] _ _ _ (leb_1 1 ltac:(lia)) N3 R2) as [K3 R3].
    destruct Hb as (e & He & Hbb). rewrite R3 in Hbb. rewrite Ha in K2.
    (* one operation, encoded by 129 and a literal byte, is an Add of one byte *)
    destruct (read_loop_enc Release Segregated 0 0 e ops He ltac:(lia) ltac:(lia) (literals ops) 10%nat 0 0) as (nadd' & E' & _ & Hadd').
    { apply (f_equal (@length Z)) in Hbb. rewrite app_length in Hbb. cbn [length] in Hbb. lia. } { lia. } { lia. } { lia. } { now left. }
    rewrite <- Hbb, <- Hn, K1 in E'. vm_compute in E'. injection E' as E'' _ E3 _. rewrite Hadd' in E3 by (auto; lia). lia.
  - split; [now apply Hbyte|]. split; [destruct m; eexists _, _; vm_compute; reflexivity|].
    intros v ops h Hv ((Hc & Hn & Hlt & Ho & _ & Ha) & hb & bb & pb & Hh & Hb & (Hp & ->) & E). cbn [fst snd] in *.
    destruct (header_parts v h hb bb _ _ Hh (eq_sym E)) as (Hcb & b1 & r1 & E1 & N1 & Hr).
    assert (L : leb [129; 128; 128; 128; 16] 4294967297) by (change 4294967297 with (129 - 128 + 128 * (128 - 128 + 128 * (128 - 128 + 128 * (128 - 128 + 128 * 16)))); repeat (constructor; [lia|]); constructor; lia).
    destruct (number_at _ _ [1; 129; 7] _ _ _ L N1 E1) as [K1 R1]. lia.
  - split; [now apply Hbyte|]. split; [destruct m; eexists _, _; vm_compute; reflexivity|].
    intros v ops h Hv ((Hc & Hn & Hlt & Ho & Hmax & Ha) & hb & bb & pb & Hh & Hb & (Hp & ->) & E). cbn [fst snd] in *. unfold ex_large in E. remember (concat (repeat [0; 255; 255; 0] 257)) as tail eqn:Et. clear Et. cbn [app] in E.
    destruct (header_parts v h hb bb _ _ Hh (eq_sym E)) as (Hcb & b1 & r1 & E1 & N1 & Hr). rewrite (control_format v h 0 Hv Hc Hcb (or_intror eq_refl)) in *. cbn [Z.eqb Pos.eqb] in *.
    destruct Hr as (b2 & -> & N2).
    assert (L1 : leb [129; 2] 257) by (change 257 with (129 - 128 + 128 * 2); apply leb_two; lia).
    destruct (number_at _ _ ([255; 253; 131; 8] ++ tail) _ _ _ L1 N1 E1) as [K1 R1]. symmetry in R1.
    assert (L2 : leb [255; 253; 131; 8] 16842495) by (change 16842495 with (255 - 128 + 128 * (253 - 128 + 128 * (131 - 128 + 128 * 8))); repeat (constructor; [lia|]); constructor; lia).
    destruct (number_at _ _ tail _ _ _ L2 N2 R1) as [K2 R2]. unfold max_win_size in Hmax. lia.
  - split; [now apply Hbyte|]. split; [destruct m; eexists _, _; vm_compute; reflexivity|].
    intros v ops h Hv ((Hc & Hn & Hlt & Ho & Hmax & Ha) & hb & bb & pb & Hh & Hb & (Hp & ->) & E). cbn [fst snd] in *.
    destruct (header_parts v h hb bb _ _ Hh (eq_sym E)) as (Hcb & b1 & r1 & E1 & N1 & Hr). rewrite (control_format v h 0 Hv Hc Hcb (or_intror eq_refl)) in *. cbn [Z.eqb Pos.eqb] in *.
    destruct Hr as (b2 & -> & N2).
    destruct (number_at [1] 1 [3; 3; 128; 128; 128; 128; 128; 128; 128; 128; 128; 2] _ _ _ (leb_1 1 ltac:(lia)) N1 E1) as [K1 R1]. symmetry in R1.
    destruct (number_at [3] 3 [3; 128; 128; 128; 128; 128; 128; 128; 128; 128; 2] _ _ _ (leb_1 3 ltac:(lia)) N2 R1) as [K2 R2].
    destruct Hb as (e & He & Hbb). rewrite R2, app_nil_r in Hbb. subst e.
    remember [3; 128; 128; 128; 128; 128; 128; 128; 128; 128; 2] as L eqn:Eb. destruct He as [d o|d o b x bs r Hf Hx Hr|d o s sb a bs r Hf Hs Hr]; [discriminate| |discriminate]. destruct Hx as [s sb a Hs|k y Hk|src s sb k db delta Hs Hl Hz Hd]; cbn [app] in Eb.
    + injection Eb as Eb _. destruct (size_enc_range _ _ _ Hs). lia.
    + injection Eb as Eb _. lia.
    + injection Eb as Eb1 Eb2. destruct (size_enc_range _ _ _ Hs) as (Hs1 & _ & _). assert (s = 3 /\ src = Dict) as [-> ->] by (destruct src; [split; [lia|reflexivity]|lia]).
      inversion Hs as [k' Hk'| |]; subst. cbn [app] in Eb2.
      assert (L : leb [128; 128; 128; 128; 128; 128; 128; 128; 128; 2] (2 ^ 64)).
      { change (2 ^ 64) with (128 - 128 + 128 * (128 - 128 + 128 * (128 - 128 + 128 * (128 - 128 + 128 * (128 - 128 + 128 * (128 - 128 + 128 * (128 - 128 + 128 * (128 - 128 + 128 * (128 - 128 + 128 * 2))))))))).
        repeat (constructor; [lia|]); constructor; lia. }
      destruct (leb_determined _ _ L db _ [] bs Hl (eq_sym Eb2)) as (_ & K & _). pose proof (zigzag_range delta ltac:(lia)). lia.
Qed.


(** A segregated section with version bits 5, overlong numbers, one literal byte declared where there are two, and a copy. *)
Example C111_example : forall m,
  read_section m ([197; 131; 0] ++ [1] ++ [136; 128; 0] ++ ([2; 6] ++ [130] ++ [197; 4]) ++ [8; 9] ++ [77]) =
    Ok ([Copy Dict 3 2; Add [8; 9]; Run 4 5], mkHeader 0 Segregated true 3 3 9, [77]) /\
  exists b, [197; 131; 0] ++ [1] ++ [136; 128; 0] ++ ([2; 6] ++ [130] ++ [197; 4]) ++ [8; 9] ++ [77] = b ++ [77] /\
    section_acc m [Copy Dict 3 2; Add [8; 9]; Run 4 5] (mkHeader 0 Segregated true 3 3 9) b.
Proof.
  intro m. assert (E : read_section m ([197; 131; 0] ++ [1] ++ [136; 128; 0] ++ ([2; 6] ++ [130] ++ [197; 4]) ++ [8; 9] ++ [77]) =
    Ok ([Copy Dict 3 2; Add [8; 9]; Run 4 5], mkHeader 0 Segregated true 3 3 9, [77])) by (destruct m; vm_compute; reflexivity).
  split; [exact E|]. apply C111_reader_accepts_exactly; [now apply byteb_ok|exact E].
Qed.
(** Eleven bytes: refused with overflow checks, a shifted-around value without. *)
Example C111_numbers_example : read_u_varint Release (repeat 255 10 ++ [1; 5]) = Ok (2 ^ 64 - 1, [5]) /\ read_u_varint Debug (repeat 255 10 ++ [1; 5]) = Panic /\
  num64 Release (repeat 128 10 ++ [3]) 192 /\ (forall v, ~ num64 Debug (repeat 128 10 ++ [3]) v).
Proof.
  split; [vm_compute; reflexivity|]. split; [vm_compute; reflexivity|].
  split; [|intros v (n & _ & H & _); vm_compute in H; now apply H].
  destruct (num64_of_read Release (repeat 128 10 ++ [3]) 192 []) as (b & E & H); [now apply byteb_ok|vm_compute; reflexivity|]. rewrite app_nil_r in E. now rewrite E.
Qed.
Example C111_short_example : num64 Release [129; 1] 129 /\ num64 Debug [129; 1] 129.
Proof. split; apply (C111_short_numbers _ [129; 1] (129 - 128 + 128 * 1)); try (apply leb_two; lia); vm_compute; intuition congruence. Qed.

Print Assumptions C111_reader_accepts_exactly.
Print Assumptions C111_numbers_accepted_exactly.
Print Assumptions C111_short_numbers.
Print Assumptions C111_accepts_more_than_the_format_refuted.
