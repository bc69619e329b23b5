(** Property C93: section headers with any field values. *)
From Verif Require Import Base Spec MCommon MWriter MReader MHeader PBase PCommon PSection.
Ltac Zify.zify_post_hook ::= idtac.
Arguments Z.add : simpl never.
Arguments Z.sub : simpl never.
Arguments Z.mul : simpl never.
Arguments Z.pow : simpl never.

(** The values the Rust types allow: the algorithm is a u8, the three numbers are u32. *)
Definition header_fields (h : header) : Prop :=
  0 <= h_comp h < 256 /\ 0 <= h_nops h < 2 ^ 32 /\ 0 <= h_nadd h < 2 ^ 32 /\ 0 <= h_osize h < 2 ^ 32.

Definition ctl (comp : Z) (f : format) (more : bool) : Z :=
  let c := to_u8 (Z.shiftl comp SECTION_COMPRESSION_RSHIFT) in
  let c := if is_segregated f then Z.lor c SECTION_FORMAT_BIT else c in
  if more then Z.lor c SECTION_CONTINUE_BIT else c.

Lemma ctl_all comp : 0 <= comp < 256 -> forall f more,
  Z.shiftr (Z.land (ctl comp f more) SECTION_COMPRESSION_MASK) SECTION_COMPRESSION_RSHIFT = comp mod 8 /\
  (Z.land (ctl comp f more) SECTION_FORMAT_BIT =? SECTION_FORMAT_BIT) = (is_segregated f || Z.odd (comp / 8)) /\
  (Z.land (ctl comp f more) SECTION_CONTINUE_BIT =? SECTION_CONTINUE_BIT) = (more || Z.odd (comp / 16)).
Proof.
  intros H f more.
  pose proof (byte_sweep (fun c =>
    (Z.shiftr (Z.land (ctl c f more) SECTION_COMPRESSION_MASK) SECTION_COMPRESSION_RSHIFT =? c mod 8) &&
    eqb (Z.land (ctl c f more) SECTION_FORMAT_BIT =? SECTION_FORMAT_BIT) (is_segregated f || Z.odd (c / 8)) &&
    eqb (Z.land (ctl c f more) SECTION_CONTINUE_BIT =? SECTION_CONTINUE_BIT) (more || Z.odd (c / 16)))
    ltac:(destruct f, more; vm_compute; reflexivity) comp H) as E.
  cbv beta in E. apply andb_true_iff in E as [E E3]. apply andb_true_iff in E as [E1 E2].
  apply Z.eqb_eq in E1. apply eqb_prop in E2, E3. auto.
Qed.

Lemma vint m n : 0 <= n < 2 ^ 64 -> exists b, write_u_varint n = (b, Ok tt) /\ forall t, read_u_varint m (b ++ t) = Ok (n, t).
Proof.
  intro H. destruct (u_varint_roundtrip m n [] H) as (b & Hw & _). exists b. split; [exact Hw|].
  intro t. destruct (u_varint_roundtrip m n t H) as (b' & Hw' & Hr). congruence.
Qed.

(** Everything written, in one shape. [last] is the last number. *)
Definition last_number (h : header) : Z :=
  match h_format h with Interleaved => h_osize h | Segregated => (h_osize h - h_nadd h) mod 2 ^ 32 end.
Lemma write_shape m h : header_fields h -> (m = Release \/ h_format h = Interleaved \/ h_nadd h <= h_osize h) ->
  exists b1 b2 b3, write_u_varint (h_nops h) = (b1, Ok tt) /\ write_u_varint (h_nadd h) = (b2, Ok tt) /\
    write_u_varint (last_number h) = (b3, Ok tt) /\
    write_section_header m h =
      (ctl (h_comp h) (h_format h) (h_more h) :: b1 ++ (if is_segregated (h_format h) then b2 else []) ++ b3, Ok tt).
Proof.
  intros (Hc & Hn & Ha & Ho) Hm. destruct h as [comp f more nops nadd osize]. cbn [h_comp h_format h_more h_nops h_nadd h_osize] in *.
  destruct (vint m nops ltac:(lia)) as (b1 & W1 & _). destruct (vint m nadd ltac:(lia)) as (b2 & W2 & _).
  assert (HL : 0 <= last_number (mkHeader comp f more nops nadd osize) < 2 ^ 64).
  { unfold last_number. cbn [h_format h_osize h_nadd]. destruct f; [lia|]. pose proof (Z.mod_pos_bound (osize - nadd) (2 ^ 32) ltac:(lia)). lia. }
  destruct (vint m _ HL) as (b3 & W3 & _).
  exists b1, b2, b3. do 3 (split; [assumption|]).
  unfold write_section_header. cbn [h_comp h_format h_more h_nops h_nadd h_osize].
  fold (ctl comp f more). match goal with |- _ = (?c :: ?l, _) => change (c :: l) with ([c] ++ l) end.
  apply wbind_put. eapply wbind_step; [exact W1|].
  destruct f; cbn [is_segregated app].
  - rewrite (wbind_lift _ _ osize) by reflexivity. exact W3.
  - eapply (wbind_step _ _ b2); [|exact W3]. rewrite <- (app_nil_r b2). eapply wbind_step; [exact W2|].
    unfold wlift, last_number. cbn [h_format h_osize h_nadd]. unfold arith, to_u32. destruct (_ =? _) eqn:E; [apply Z.eqb_eq in E; rewrite E; reflexivity|].
    destruct m; [|reflexivity]. exfalso. apply Z.eqb_neq in E. apply E.
    destruct Hm as [Hm|[Hm|Hm]]; try discriminate. apply Z.mod_small. lia.
Qed.

(** C93. Writing a header succeeds unless overflow checks catch more literal bytes than output bytes. *)
Theorem C93_write_outcome : forall m h, header_fields h ->
  snd (write_section_header m h) =
  if (match m with Debug => true | Release => false end) && is_segregated (h_format h) && (h_osize h <? h_nadd h) then Panic else Ok tt.
Proof.
  intros m h Hf. destruct (_ && _ && _) eqn:E.
  - destruct m; [|discriminate]. cbn [andb] in E. apply andb_true_iff in E as [E1 E2].
    destruct Hf as (Hc & Hn & Ha & Ho). destruct h as [comp f more nops nadd osize]. cbn [h_comp h_format h_more h_nops h_nadd h_osize] in *.
    destruct (vint Debug nops ltac:(lia)) as (b1 & W1 & _). destruct (vint Debug nadd ltac:(lia)) as (b2 & W2 & _).
    unfold write_section_header. cbn [h_comp h_format h_more h_nops h_nadd h_osize]. rewrite E1, W1, W2.
    assert (A : arith Debug to_u32 (osize - nadd) = Panic).
    { unfold arith, to_u32. destruct (_ =? _) eqn:X; [|reflexivity]. apply Z.eqb_eq in X.
      pose proof (Z.mod_pos_bound (osize - nadd) (2 ^ 32) ltac:(lia)). lia. }
    rewrite A. reflexivity.
  - destruct (write_shape m h Hf) as (b1 & b2 & b3 & _ & _ & _ & W).
    { destruct m; [|auto]. destruct (h_format h); [auto|]. cbn in E. right; right; lia. }
    rewrite W. reflexivity.
Qed.

(** What is read back, for every header that was written, in the same build. The algorithm loses its bits from 8 up;
    bit 4 (value 16) turns the continuation flag on. Headers whose algorithm has bit 3 (value 8) clear, or that are
    segregated anyhow, are otherwise read back exactly. *)
Theorem C93_read_back : forall m h bs rest, header_fields h -> write_section_header m h = (bs, Ok tt) ->
  h_format h = Segregated \/ Z.odd (h_comp h / 8) = false ->
  read_section_header m (bs ++ rest) =
  Ok (mkHeader (h_comp h mod 8) (h_format h) (h_more h || Z.odd (h_comp h / 16)) (h_nops h)
        (match h_format h with Segregated => h_nadd h | Interleaved => 0 end) (h_osize h), rest).
Proof.
  intros m h bs rest Hf HW Hb.
  pose proof (C93_write_outcome m h Hf) as HO. rewrite HW in HO. cbn [snd] in HO.
  assert (Hm : m = Release \/ h_format h = Interleaved \/ h_nadd h <= h_osize h).
  { destruct m; [|auto]. destruct (h_format h); [auto|]. cbn in HO. destruct (h_osize h <? h_nadd h) eqn:E; [discriminate|]. right; right; lia. }
  destruct (write_shape m h Hf Hm) as (b1 & b2 & b3 & W1 & W2 & W3 & W).
  rewrite HW in W. injection W as ->.
  destruct Hf as (Hc & Hn & Ha & Ho). destruct h as [comp f more nops nadd osize]. cbn [h_comp h_format h_more h_nops h_nadd h_osize] in *.
  destruct (ctl_all comp Hc f more) as (K1 & K2 & K3).
  assert (HL : 0 <= last_number (mkHeader comp f more nops nadd osize) < 2 ^ 32).
  { unfold last_number. cbn [h_format h_osize h_nadd]. destruct f; [lia|]. apply Z.mod_pos_bound. lia. }
  destruct (vint m nops ltac:(lia)) as (b1' & W1' & R1). destruct (vint m nadd ltac:(lia)) as (b2' & W2' & R2).
  destruct (vint m (last_number (mkHeader comp f more nops nadd osize)) ltac:(lia)) as (b3' & W3' & R3).
  assert (b1' = b1) by congruence. assert (b2' = b2) by congruence. assert (b3' = b3) by (rewrite W3 in W3'; injection W3' as ->; reflexivity). subst b1' b2' b3'.
  unfold read_section_header. cbn [app read_u8 bind]. rewrite K1, K2, K3. cbv zeta.
  assert (Hfm : is_segregated f || Z.odd (comp / 8) = is_segregated f).
  { destruct Hb as [->| ->]; [reflexivity|]. apply orb_false_r. }
  rewrite Hfm, <- !app_assoc, R1. cbn [bind]. rewrite (to_u32_id nops) by lia.
  destruct f; cbn [is_segregated app bind].
  - rewrite R3. cbn [bind]. rewrite to_u32_id by lia. reflexivity.
  - rewrite R2. cbn [bind]. rewrite R3. cbn [bind]. rewrite !to_u32_id by lia.
    unfold last_number. cbn [h_format h_osize h_nadd].
    assert (S : arith m to_u32 (nadd + (osize - nadd) mod 2 ^ 32) = Ok osize).
    { unfold arith, to_u32. rewrite Zplus_mod_idemp_r. replace (nadd + (osize - nadd)) with osize by lia.
      rewrite (Z.mod_small osize) by lia. destruct (Z.eqb_spec osize (nadd + (osize - nadd) mod 2 ^ 32)) as [E|E]; [rewrite <- E; reflexivity|].
      destruct m; [|reflexivity]. exfalso. apply E.
      destruct Hm as [Hm|[Hm|Hm]]; try discriminate. rewrite Z.mod_small by lia. lia. }
    rewrite S. reflexivity.
Qed.
Example C93_read_back_example : let h := mkHeader 16 Segregated false 7 9 2 in
  header_fields h /\ snd (write_section_header Debug h) = Panic /\
  exists bs, write_section_header Release h = (bs, Ok tt) /\ read_section_header Release (bs ++ [5]) = Ok (mkHeader 0 Segregated true 7 9 2, [5]).
Proof. cbv zeta. split; [unfold header_fields; cbn; lia|]. split; [reflexivity|]. eexists. split; [vm_compute; reflexivity|]. vm_compute. reflexivity. Qed.

(** An interleaved header whose algorithm has bit 3 (values 8..15, 24..31, ...) is read as a segregated one: what was
    written as the output size is taken for the number of literal bytes, and the output size is read from whatever
    follows the header. *)
Theorem C93_format_corrupted : forall m h bs rest, header_fields h -> write_section_header m h = (bs, Ok tt) ->
  h_format h = Interleaved -> Z.odd (h_comp h / 8) = true ->
  forall h' rest', read_section_header m (bs ++ rest) = Ok (h', rest') ->
    h_format h' = Segregated /\ h_comp h' = h_comp h mod 8 /\ h_nops h' = h_nops h /\ h_nadd h' = h_osize h /\
    exists n, read_u_varint m rest = Ok (n, rest') /\ h_osize h' = (h_osize h + n) mod 2 ^ 32.
Proof.
  intros m h bs rest Hf HW Hi Hb h' rest' HR.
  destruct (write_shape m h Hf (or_intror (or_introl Hi))) as (b1 & b2 & b3 & W1 & W2 & W3 & W).
  rewrite HW in W. injection W as ->.
  destruct Hf as (Hc & Hn & Ha & Ho). destruct h as [comp f more nops nadd osize]. cbn [h_comp h_format h_more h_nops h_nadd h_osize] in *. subst f.
  destruct (ctl_all comp Hc Interleaved more) as (K1 & K2 & K3). rewrite Hb in K2. cbn [is_segregated orb] in K2.
  destruct (vint m nops ltac:(lia)) as (b1' & W1' & R1).
  destruct (vint m osize ltac:(lia)) as (b3' & W3' & R3). change (write_u_varint osize = (b3, Ok tt)) in W3.
  assert (b1' = b1) by congruence. assert (b3' = b3) by (rewrite W3 in W3'; injection W3' as ->; reflexivity). subst b1' b3'.
  unfold read_section_header in HR. cbn [app read_u8 bind is_segregated] in HR. rewrite K1, K2, K3 in HR. cbv zeta in HR.
  rewrite <- !app_assoc, R1 in HR. cbn [bind is_segregated] in HR. rewrite R3 in HR. cbn [bind] in HR.
  rewrite (to_u32_id nops), (to_u32_id osize) in HR by lia.
  destruct (read_u_varint m rest) as [[n r]|e| |] eqn:EN; cbn [bind] in HR; try discriminate.
  unfold arith in HR. destruct (_ =? _) eqn:E in HR; cbn [bind] in HR.
  - injection HR as <- <-. cbn. repeat (split; [reflexivity|]). exists n. split; [reflexivity|].
    apply Z.eqb_eq in E. rewrite <- E. unfold to_u32. apply Zplus_mod_idemp_r.
  - destruct m; [discriminate|]. cbn [bind] in HR. injection HR as <- <-. cbn. repeat (split; [reflexivity|]). exists n. split; [reflexivity|].
    unfold to_u32. apply Zplus_mod_idemp_r.
Qed.
(** The belief that a written header is read back is refuted for algorithm 8. *)
Theorem C93_refuted : let h := mkHeader 8 Interleaved false 1 0 3 in
  header_fields h /\ exists bs, write_section_header Debug h = (bs, Ok tt) /\ read_section_header Debug bs = Err EOF /\
    read_section_header Debug (bs ++ [131; 9; 9; 9]) = Ok (mkHeader 0 Segregated false 1 3 1158, [9; 9]).
Proof. cbv zeta. split; [unfold header_fields; cbn; lia|]. eexists. split; [vm_compute; reflexivity|]. split; vm_compute; reflexivity. Qed.

(** With the builder this cannot happen: the algorithm is clamped, so every built header that could be written is read
    back with exactly the values given (algorithms above 7 silently become 7). *)
Theorem C93_builder : forall m nops nadd osize a f more bs rest,
  0 <= nops < 2 ^ 32 -> 0 <= nadd < 2 ^ 32 -> 0 <= osize < 2 ^ 32 -> 0 <= a < 256 ->
  write_section_header m (set_more_sections (set_format (set_compression_algo (header_new nops nadd osize) a) f) more) = (bs, Ok tt) ->
  read_section_header m (bs ++ rest) =
  Ok (mkHeader (Z.min a 7) f more nops (match f with Segregated => nadd | Interleaved => 0 end) osize, rest).
Proof.
  intros m nops nadd osize a f more bs rest Hn Ha Ho Hc HW.
  assert (K : Z.min (Z.max a 0) 7 = Z.min a 7) by lia.
  assert (HF : header_fields (set_more_sections (set_format (set_compression_algo (header_new nops nadd osize) a) f) more)).
  { unfold header_fields, set_more_sections, set_format, set_compression_algo, header_new. cbn [h_comp h_nops h_nadd h_osize]. rewrite K. lia. }
  pose proof (C93_read_back m _ bs rest HF HW) as R.
  unfold set_more_sections, set_format, set_compression_algo, header_new in R. cbn [h_comp h_format h_more h_nops h_nadd h_osize] in R.
  rewrite K in R. rewrite (Z.div_small (Z.min a 7) 8), (Z.div_small (Z.min a 7) 16), (Z.mod_small (Z.min a 7) 8) in R by lia.
  rewrite R by (right; reflexivity). cbn. rewrite orb_false_r. reflexivity.
Qed.
Example C93_builder_example :
  let h := set_more_sections (set_format (set_compression_algo (header_new 5 6 700) 200) Segregated) true in
  is_compressed h = true /\ is_interleaved h = false /\
  exists bs, write_section_header Debug h = (bs, Ok tt) /\ read_section_header Debug bs = Ok (mkHeader 7 Segregated true 5 6 700, []).
Proof. cbv zeta. do 2 (split; [reflexivity|]). eexists. split; [vm_compute; reflexivity|]. vm_compute. reflexivity. Qed.

(** The setters may be called in any order and any number of times, or not at all. *)
Inductive setting := Algo (a : Z) | Fmt (f : format) | More (b : bool).
Definition set1 (h : header) (s : setting) : header :=
  match s with Algo a => set_compression_algo h a | Fmt f => set_format h f | More b => set_more_sections h b end.
(** The value given last, or the default if none was given. *)
Definition last_given {A} (get : setting -> option A) (default : A) (l : list setting) : A :=
  fold_left (fun x s => match get s with Some y => y | None => x end) l default.
Definition algo_of s := match s with Algo a => Some a | _ => None end.
Definition fmt_of s := match s with Fmt f => Some f | _ => None end.
Definition more_of s := match s with More b => Some b | _ => None end.
Definition u8_settings (l : list setting) : Prop := Forall (fun s => match s with Algo a => 0 <= a < 256 | _ => True end) l.

Lemma set1_fold l : u8_settings l -> forall a f b n d o, 0 <= a < 256 ->
  0 <= last_given algo_of a l < 256 /\
  fold_left set1 l (mkHeader (Z.min a 7) f b n d o) =
  mkHeader (Z.min (last_given algo_of a l) 7) (last_given fmt_of f l) (last_given more_of b l) n d o.
Proof.
  intro HU. induction HU as [|s l Hs HU IH]; intros a f b n d o Ha; [split; [exact Ha|reflexivity]|].
  unfold last_given. cbn [fold_left]. destruct s as [a'|f'|b']; cbn [set1 algo_of fmt_of more_of].
  - unfold set_compression_algo. cbn [h_comp h_format h_more h_nops h_nadd h_osize].
    replace (Z.min (Z.max a' 0) 7) with (Z.min a' 7) by lia. apply IH. exact Hs.
  - unfold set_format. cbn [h_comp h_format h_more h_nops h_nadd h_osize]. apply IH. exact Ha.
  - unfold set_more_sections. cbn [h_comp h_format h_more h_nops h_nadd h_osize]. apply IH. exact Ha.
Qed.
Theorem C93_any_settings : forall m nops nadd osize l bs rest,
  0 <= nops < 2 ^ 32 -> 0 <= nadd < 2 ^ 32 -> 0 <= osize < 2 ^ 32 -> u8_settings l ->
  write_section_header m (fold_left set1 l (header_new nops nadd osize)) = (bs, Ok tt) ->
  let f := last_given fmt_of Interleaved l in
  read_section_header m (bs ++ rest) =
  Ok (mkHeader (Z.min (last_given algo_of 0 l) 7) f (last_given more_of false l) nops
        (match f with Segregated => nadd | Interleaved => 0 end) osize, rest).
Proof.
  intros m nops nadd osize l bs rest Hn Hd Ho HU HW f. unfold f. clear f.
  destruct (set1_fold l HU 0 Interleaved false nops nadd osize ltac:(lia)) as [HA E].
  change (mkHeader (Z.min 0 7) Interleaved false nops nadd osize) with (header_new nops nadd osize) in E. rewrite E in HW.
  apply C93_builder; try assumption.
  unfold set_more_sections, set_format, set_compression_algo, header_new. cbn [h_comp h_format h_more h_nops h_nadd h_osize].
  replace (Z.min (Z.max (last_given algo_of 0 l) 0) 7) with (Z.min (last_given algo_of 0 l) 7) by lia. exact HW.
Qed.
Example C93_any_settings_example : forall rest, exists bs,
  write_section_header Debug (fold_left set1 [More true; Algo 9; Fmt Segregated; Algo 2; More false] (header_new 5 6 700)) = (bs, Ok tt) /\
  read_section_header Debug (bs ++ rest) = Ok (mkHeader 2 Segregated false 5 6 700, rest) /\
  exists bs0, write_section_header Debug (header_new 5 6 700) = (bs0, Ok tt) /\
  read_section_header Debug (bs0 ++ rest) = Ok (mkHeader 0 Interleaved false 5 0 700, rest).
Proof.
  intro rest. eexists. split; [vm_compute; reflexivity|]. split.
  - exact (C93_any_settings Debug 5 6 700 [More true; Algo 9; Fmt Segregated; Algo 2; More false] _ rest ltac:(lia) ltac:(lia) ltac:(lia)
      ltac:(repeat constructor; lia) ltac:(vm_compute; reflexivity)).
  - eexists. split; [vm_compute; reflexivity|].
    exact (C93_any_settings Debug 5 6 700 [] _ rest ltac:(lia) ltac:(lia) ltac:(lia) ltac:(constructor) ltac:(vm_compute; reflexivity)).
Qed.

(** What the queries answer about a built header, and about any header read back from it: compressed exactly when a
    non-zero algorithm was given (known to the decoder or not), interleaved exactly when that format was given. *)
Theorem C93_queries : forall m nops nadd osize a f more bs rest h' rest',
  let h := set_more_sections (set_format (set_compression_algo (header_new nops nadd osize) a) f) more in
  0 <= nops < 2 ^ 32 -> 0 <= nadd < 2 ^ 32 -> 0 <= osize < 2 ^ 32 -> 0 <= a < 256 ->
  (is_compressed h = true <-> a <> 0) /\ (is_interleaved h = true <-> f = Interleaved) /\
  (write_section_header m h = (bs, Ok tt) -> read_section_header m (bs ++ rest) = Ok (h', rest') ->
   (is_compressed h' = true <-> a <> 0) /\ (is_interleaved h' = true <-> f = Interleaved) /\ rest' = rest).
Proof.
  intros m nops nadd osize a f more bs rest h' rest' h Hn Hd Ho Ha.
  assert (Q : forall x f0 mo n1 n2 n3, (x = 0 <-> a = 0) -> (is_compressed (mkHeader x f0 mo n1 n2 n3) = true <-> a <> 0)).
  { intros. unfold is_compressed. cbn [h_comp]. destruct (Z.eqb_spec x 0); cbn [negb]; split; intro; try discriminate; try reflexivity; intuition. }
  assert (I : forall x mo n1 n2 n3, is_interleaved (mkHeader x f mo n1 n2 n3) = true <-> f = Interleaved).
  { intros. unfold is_interleaved. cbn [h_format]. destruct f; split; intro; congruence. }
  split; [apply Q; cbn; lia|]. split; [apply I|]. intros HW HR.
  pose proof (C93_builder m nops nadd osize a f more bs rest Hn Hd Ho Ha HW) as R. rewrite HR in R. injection R as -> ->.
  split; [apply Q; lia|]. split; [apply I|reflexivity].
Qed.
Example C93_queries_example :
  let h := set_more_sections (set_format (set_compression_algo (header_new 5 6 700) 5) Interleaved) false in
  is_compressed h = true /\ exists bs, write_section_header Debug h = (bs, Ok tt) /\
    read_section_header Debug bs = Ok (mkHeader 5 Interleaved false 5 0 700, []).
Proof. cbv zeta. split; [reflexivity|]. eexists. split; [vm_compute; reflexivity|]. vm_compute. reflexivity. Qed.

(** A header with more literal bytes than output, written without overflow checks, panics readers with them. *)
Theorem C93_release_header_panics_debug : forall h bs rest, header_fields h -> h_format h = Segregated -> h_osize h < h_nadd h ->
  write_section_header Release h = (bs, Ok tt) -> read_section_header Debug (bs ++ rest) = Panic.
Proof.
  intros h bs rest Hf Hs Hlt HW.
  destruct (write_shape Release h Hf (or_introl eq_refl)) as (b1 & b2 & b3 & W1 & W2 & W3 & W).
  rewrite HW in W. injection W as ->.
  destruct Hf as (Hc & Hn & Ha & Ho). destruct h as [comp f more nops nadd osize]. cbn [h_comp h_format h_more h_nops h_nadd h_osize] in *. subst f.
  destruct (ctl_all comp Hc Segregated more) as (K1 & K2 & K3).
  set (L := last_number _) in W3.
  assert (HL : L = osize - nadd + 2 ^ 32).
  { unfold L, last_number. cbn [h_format h_osize h_nadd]. rewrite <- (Z.mod_add _ 1) by lia. rewrite Z.mod_small by lia. lia. }
  destruct (vint Debug nops ltac:(lia)) as (b1' & W1' & R1). destruct (vint Debug nadd ltac:(lia)) as (b2' & W2' & R2).
  destruct (vint Debug L ltac:(lia)) as (b3' & W3' & R3).
  assert (b1' = b1) by congruence. assert (b2' = b2) by congruence. assert (b3' = b3) by (rewrite W3 in W3'; injection W3' as ->; reflexivity). subst b1' b2' b3'.
  unfold read_section_header. cbn [app read_u8 bind is_segregated]. rewrite K1, K2, K3. cbn [is_segregated orb]. cbv zeta.
  rewrite <- !app_assoc, R1. cbn [bind is_segregated]. rewrite R2. cbn [bind]. rewrite R3. cbn [bind].
  rewrite !to_u32_id by lia.
  assert (A : arith Debug to_u32 (nadd + L) = Panic).
  { clear K1 K2 K3. unfold arith, to_u32. destruct (Z.eqb_spec ((nadd + L) mod 2 ^ 32) (nadd + L)) as [X|X]; [|reflexivity].
    pose proof (Z.mod_pos_bound (nadd + L) (2 ^ 32) ltac:(lia)). lia. }
  rewrite A. reflexivity.
Qed.
Example C93_release_example : let h := mkHeader 0 Segregated false 0 5 3 in header_fields h /\
  exists bs, write_section_header Release h = (bs, Ok tt) /\ read_section_header Debug bs = Panic.
Proof. cbv zeta. split; [unfold header_fields; cbn; lia|]. eexists. split; [vm_compute; reflexivity|]. vm_compute. reflexivity. Qed.

(** The version bits (the low three bits of a section's first byte) have no influence: the version is never checked. *)
Theorem C93_version_not_checked : forall m k v v' bs, 0 <= k < 32 -> 0 <= v < 8 -> 0 <= v' < 8 ->
  read_section m (8 * k + v :: bs) = read_section m (8 * k + v' :: bs).
Proof.
  intros m k v v' bs Hk Hv Hv'.
  assert (K : forall v, 0 <= v < 8 -> Z.land (8 * k + v) SECTION_COMPRESSION_MASK = Z.land (8 * k) SECTION_COMPRESSION_MASK /\
    Z.land (8 * k + v) SECTION_FORMAT_BIT = Z.land (8 * k) SECTION_FORMAT_BIT /\
    Z.land (8 * k + v) SECTION_CONTINUE_BIT = Z.land (8 * k) SECTION_CONTINUE_BIT).
  { intros w Hw. pose proof (byte_sweep (fun b => (Z.land b SECTION_COMPRESSION_MASK =? Z.land (8 * (b / 8)) SECTION_COMPRESSION_MASK) &&
      (Z.land b SECTION_FORMAT_BIT =? Z.land (8 * (b / 8)) SECTION_FORMAT_BIT) &&
      (Z.land b SECTION_CONTINUE_BIT =? Z.land (8 * (b / 8)) SECTION_CONTINUE_BIT)) eq_refl (8 * k + w) ltac:(lia)) as E.
    cbv beta in E. replace ((8 * k + w) / 8) with k in E.
    2: { rewrite Z.add_comm, Z.mul_comm, Z.div_add by lia. rewrite Z.div_small by lia. lia. }
    apply andb_true_iff in E as [E E3]. apply andb_true_iff in E as [E1 E2]. apply Z.eqb_eq in E1, E2, E3. auto. }
  destruct (K v Hv) as (A1 & A2 & A3). destruct (K v' Hv') as (B1 & B2 & B3).
  unfold read_section, read_section_header. cbn [read_u8 bind]. rewrite A1, A2, A3, B1, B2, B3. reflexivity.
Qed.
Example C93_version_example : exists r, read_section Debug (8 * 0 + 0 :: [1; 2; 194; 7]) = Ok r /\
  read_section Debug (8 * 0 + 5 :: [1; 2; 194; 7]) = Ok ([Run 7 2], mkHeader 0 Interleaved false 1 0 2, []).
Proof. eexists. split; vm_compute; reflexivity. Qed.

Print Assumptions C93_write_outcome.
Print Assumptions C93_read_back.
Print Assumptions C93_format_corrupted.
Print Assumptions C93_refuted.
Print Assumptions C93_builder.
Print Assumptions C93_any_settings.
Print Assumptions C93_queries.
Print Assumptions C93_release_header_panics_debug.
Print Assumptions C93_version_not_checked.
