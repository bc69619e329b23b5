(** Patch readers that fail, for the decoder, the merger and the transcoder. Property C100. *)
From Verif Require Import Base Spec SpecEnc MCommon MWriter MReader MDecoder MOpMaker MTrgtMatcher MSrcMatcher MEncInner MEncode MMerger MTranscoder MStream MBroken SpecApi SpecMerge PBase PCommon PStream PSection PWriter PDecoder PPatch PRobust PEncode PMerge4 TEncode TPipe TTrunc TStream PMerge3.
Ltac Zify.zify_post_hook ::= idtac.
Arguments Z.add : simpl never.
Arguments Z.sub : simpl never.
Arguments Z.mul : simpl never.
Arguments Z.pow : simpl never.

(** ** Specification *)
(** A reader in a state of [V s l] gives the bytes [l], in pieces of any sizes and with any interruptions, and then fails with [e] (a connection that breaks, a bad disk block). *)
Definition breaks {St} (R : reader St) (V : St -> list Z -> Prop) (e : err) : Prop := forall s l, V s l ->
  (length l <= rd_most R s)%nat /\
  forall n, 0 < n ->
  match rd_read R n s with
  | Got bs s' => exists l', l = bs ++ l' /\ bs <> [] /\ zlen bs <= n /\ V s' l' /\ (length bs + rd_most R s' <= rd_most R s)%nat
  | Again s' => V s' l /\ (rd_most R s' < rd_most R s)%nat
  | Fails e' => l = [] /\ e' = e
  end.
(** What a failure of the reader can become: the reader's error, or a panic if [z] (the unwrapped constructor of the zstd decoder). *)
Definition reported {A} (e : err) (z : bool) (r : res A) : Prop := r = Err e \/ z = true /\ r = Panic.

Definition fsim {St A} (V : St -> list Z -> Prop) (e : err) (z : bool) (p : list Z -> res (A * list Z)) (q : St -> res (A * St)) : Prop := forall s l, V s l ->
  match p l with
  | Ok (v, rest) => exists s', q s = Ok (v, s') /\ V s' rest /\ forall t, p (l ++ t) = Ok (v, rest ++ t)
  | Err x => reported e z (q s) \/ q s = Err x /\ forall t, p (l ++ t) = Err x
  | Panic => reported e z (q s) \/ q s = Panic /\ forall t, p (l ++ t) = Panic
  | Diverge => reported e z (q s) \/ q s = Diverge /\ forall t, p (l ++ t) = Diverge
  end.

Lemma fexact_loop {St} (R : reader St) V e : breaks R V e -> forall k n s l, V s l -> (rd_most R s < k)%nat -> 0 <= n ->
  if n <=? zlen l then exists s', g_exact_loop R k n s = Ok (take n l, s') /\ V s' (drop n l) else g_exact_loop R k n s = Err e.
Proof.
  intro HR. induction k as [|k IH]; intros n s l Hv Hk Hn; [lia|]. cbn [g_exact_loop]. pose proof (zlen_nonneg l). destruct (HR s l Hv) as [Hlm Hrd].
  destruct (Z.leb_spec n 0).
  - assert (n = 0) as -> by lia. destruct (Z.leb_spec 0 (zlen l)); [|lia]. exists s. split; [reflexivity|exact Hv].
  - specialize (Hrd n ltac:(lia)). destruct (rd_read R n s) as [bs s'|s'|e'].
    + destruct Hrd as (l' & -> & He & Hb & Hv' & Hm). destruct bs as [|x bs]; [congruence|].
      set (c := x :: bs) in *. assert (Hc : 1 <= zlen c) by (unfold c; rewrite zlen_cons; pose proof (zlen_nonneg bs); lia). cbn [app]. rewrite zlen_app in *.
      assert (Hc' : (0 < length c)%nat) by (unfold c; cbn [length]; lia).
      specialize (IH (n - zlen c) s' l' Hv' ltac:(lia) ltac:(lia)).
      destruct (Z.leb_spec (n - zlen c) (zlen l')) as [A|A]; destruct (Z.leb_spec n (zlen c + zlen l')) as [B|B]; try lia.
      * destruct IH as (s2 & E & Hv2). exists s2. rewrite E. cbn [bind]. rewrite take_app_r, drop_app_r by lia. split; [reflexivity|exact Hv2].
      * rewrite IH. reflexivity.
    + destruct Hrd as [Hv' Hm]. apply IH; [exact Hv'|lia|lia].
    + destruct Hrd as [-> ->]. rewrite (@zlen_nil Z). destruct (Z.leb_spec n 0); [lia|reflexivity].
Qed.
Section Sim.
  Context {St : Type} (R : reader St) (V : St -> list Z -> Prop) (e : err) (z : bool) (HR : breaks R V e).
  Lemma rep_bind {A B} (r : res A) (f : A -> res B) : reported e z r -> reported e z (bind r f).
  Proof. intros [-> | [Hz ->]]; [left|right]; auto. Qed.
  Lemma f_exact n : fsim V e z (read_exact n) (g_read_exact R n).
  Proof.
    intros s l Hv. unfold read_exact, g_read_exact. destruct (Z.le_gt_cases 0 n) as [Hn|Hn].
    - pose proof (fexact_loop R V e HR (S (rd_most R s)) n s l Hv ltac:(lia) Hn) as H. destruct (Z.leb_spec n (zlen l)) as [A|A].
      + destruct H as (s' & E & K). exists s'. split; [exact E|]. split; [exact K|]. intro t. rewrite zlen_app. pose proof (zlen_nonneg t). destruct (Z.leb_spec n (zlen l + zlen t)); [|lia].
        rewrite take_app_l, drop_app_l by lia. reflexivity.
      + left. left. exact H.
    - pose proof (zlen_nonneg l). destruct (Z.leb_spec n (zlen l)); [|lia]. cbn [g_exact_loop]. destruct (Z.leb_spec n 0); [|lia].
      unfold take, drop. replace (Z.to_nat n) with 0%nat by lia. cbn [firstn skipn]. exists s. split; [reflexivity|]. split; [exact Hv|]. intro t. pose proof (zlen_nonneg (l ++ t)). destruct (Z.leb_spec n (zlen (l ++ t))); [reflexivity|lia].
  Qed.
  Ltac rw := repeat match goal with H : forall t : list Z, _ = _ |- _ => rewrite H; cbn [bind fst snd] | H : _ = true |- _ => rewrite H; cbn [bind fst snd] | H : _ = false |- _ => rewrite H; cbn [bind fst snd] | H : _ = Ok _ |- _ => rewrite H; cbn [bind fst snd] | H : _ = Err _ |- _ => rewrite H; cbn [bind fst snd] | H : _ = Panic |- _ => rewrite H; cbn [bind fst snd] | H : _ = Diverge |- _ => rewrite H; cbn [bind fst snd] end.
  Ltac rb G := first [exact G | apply rep_bind; rb G].
  Ltac bad H := let G := fresh "G" in let T := fresh "T" in destruct H as [G|[G T]]; [left; rb G|right; rewrite G; split; [reflexivity|let t := fresh "t" in intro t; rw; try reflexivity]].
  Ltac fs L := let H := fresh "H" in pose proof L as H; match type of H with match ?x with _ => _ end => destruct x as [[? ?]|?| |] end;
    [let s1 := fresh "s" in let Hv1 := fresh "Hv" in let Ht := fresh "Ht" in destruct H as (s1 & H & Hv1 & Ht); rewrite H; clear H; cbn [bind fst snd] | bad H | bad H | bad H ].
  Ltac ok := eexists; split; [reflexivity|]; split; [eassumption|]; let t := fresh "t" in intro t; rw; try reflexivity.
  Ltac er := right; split; [reflexivity|]; let t := fresh "t" in intro t; rw; try reflexivity.
  Lemma f_u8 : fsim V e z read_u8 (g_read_u8 R).
  Proof.
    intros s l Hv. unfold g_read_u8. pose proof (f_exact 1 s l Hv) as H. unfold read_exact in H. unfold read_u8. destruct l as [|x l].
    - change (1 <=? zlen (@nil Z)) with false in H. cbv iota in H. destruct H as [H|[_ H]]; [left; apply rep_bind, H|exfalso]. specialize (H [0]). discriminate H.
    - replace (1 <=? zlen (x :: l)) with true in H by (rewrite zlen_cons; pose proof (zlen_nonneg l); lia). destruct H as (b' & -> & K & _). change (take 1 (x :: l)) with [x]. cbn [bind]. exists b'. split; [reflexivity|]. split; [exact K|]. reflexivity.
  Qed.
  Lemma f_u16 : fsim V e z read_u16 (g_read_u16 R).
  Proof.
    intros s l Hv. unfold g_read_u16. pose proof (f_exact 2 s l Hv) as H. unfold read_exact in H. unfold read_u16. destruct l as [|x [|y l]].
    - change (2 <=? zlen (@nil Z)) with false in H. cbv iota in H. destruct H as [H|[_ H]]; [left; apply rep_bind, H|exfalso]. specialize (H [0; 0]). discriminate H.
    - change (2 <=? zlen [x]) with false in H. cbv iota in H. destruct H as [H|[_ H]]; [left; apply rep_bind, H|exfalso]. specialize (H [0]). discriminate H.
    - replace (2 <=? zlen (x :: y :: l)) with true in H by (rewrite !zlen_cons; pose proof (zlen_nonneg l); lia). destruct H as (b' & -> & K & _). change (take 2 (x :: y :: l)) with [x; y]. cbn [bind]. exists b'. split; [reflexivity|]. split; [exact K|]. reflexivity.
  Qed.
  Lemma f_varint m : forall fuel l s rs sh, V s l -> (length l < fuel)%nat ->
    match read_u_varint_loop m rs sh l with
    | Ok (v, rest) => exists s', g_varint_loop R fuel m rs sh s = Ok (v, s') /\ V s' rest /\ forall t, read_u_varint_loop m rs sh (l ++ t) = Ok (v, rest ++ t)
    | Err x => reported e z (g_varint_loop R fuel m rs sh s) \/ g_varint_loop R fuel m rs sh s = Err x /\ forall t, read_u_varint_loop m rs sh (l ++ t) = Err x
    | Panic => reported e z (g_varint_loop R fuel m rs sh s) \/ g_varint_loop R fuel m rs sh s = Panic /\ forall t, read_u_varint_loop m rs sh (l ++ t) = Panic
    | Diverge => reported e z (g_varint_loop R fuel m rs sh s) \/ g_varint_loop R fuel m rs sh s = Diverge /\ forall t, read_u_varint_loop m rs sh (l ++ t) = Diverge
    end.
  Proof.
    induction fuel as [|k IH]; intros l s rs sh Hv Hf; [lia|]. cbn [g_varint_loop]. pose proof (f_u8 s l Hv) as H. destruct l as [|x l]; cbn [read_u8 read_u_varint_loop] in *.
    - destruct H as [H|[_ H]]; [left; apply rep_bind, H|]. specialize (H [0]). discriminate H.
    - destruct H as (s1 & -> & K & _). cbn [bind app read_u_varint_loop]. destruct (shl_u64 m (Z.land x 127) sh) as [v|e1| |]; cbn [bind]; try (right; split; [reflexivity|intro; reflexivity]).
      destruct (Z.land x 128 =? 0); [exists s1; split; [reflexivity|]; split; [exact K|intro; reflexivity]|].
      apply IH; [exact K|cbn [length] in Hf; lia].
  Qed.
  Lemma fmost_len s l : V s l -> (length l < S (rd_most R s))%nat.
  Proof. intro Hv. destruct (HR s l Hv) as [H _]. lia. Qed.
  Lemma f_u_varint m : fsim V e z (read_u_varint m) (g_read_u_varint R m).
  Proof. intros s l Hv. unfold read_u_varint, g_read_u_varint. apply f_varint; [exact Hv|now apply fmost_len]. Qed.
  Lemma f_i_varint m : fsim V e z (read_i_varint m) (g_read_i_varint R m).
  Proof. intros s l Hv. unfold read_i_varint, g_read_i_varint. fs (f_u_varint m s l Hv). ok. Qed.
  Lemma f_header m : fsim V e z (read_section_header m) (g_read_section_header R m).
  Proof.
    intros s l Hv. unfold read_section_header, g_read_section_header. fs (f_u8 s l Hv). fs (f_u_varint m _ _ Hv0). set (f := if Z.land z0 SECTION_FORMAT_BIT =? SECTION_FORMAT_BIT then Segregated else Interleaved).
    destruct (is_segregated f) eqn:Ef; unfold f in Ef.
    - fs (f_u_varint m _ _ Hv1). fs (f_u_varint m _ _ Hv2). destruct (arith m to_u32 (to_u32 z2 + to_u32 z3)) as [o|e1| |] eqn:Ea; cbn [bind]; [ok|er..].
    - cbn [bind]. fs (f_u_varint m _ _ Hv1). ok.
  Qed.
  Lemma f_op_byte : fsim V e z read_op_byte (g_read_op_byte R).
  Proof.
    intros s l Hv. unfold read_op_byte, g_read_op_byte. fs (f_u8 s l Hv).
    destruct (Z.land z0 OP_MASK =? COPY_D) eqn:E1; [ok|]. destruct (Z.land z0 OP_MASK =? COPY_O) eqn:E2; [ok|]. destruct (Z.land z0 OP_MASK =? ADD) eqn:E3; [ok|].
    destruct (Z.land z0 OP_MASK =? RUN) eqn:E4; [ok|er].
  Qed.
  Lemma f_size sz : fsim V e z (fun bs => match sz with Done n => Ok (n, bs) | U8And62 => do (b, bs) <- read_u8 bs; Ok (b + 62, bs) | U16 => read_u16 bs end)
    (fun bs => match sz with Done n => Ok (n, bs) | U8And62 => do (b, bs) <- g_read_u8 R bs; Ok (b + 62, bs) | U16 => g_read_u16 R bs end).
  Proof.
    intros s l Hv. cbv beta. destruct sz as [n| |]; [ok| |now apply f_u16]. fs (f_u8 s l Hv). ok.
  Qed.
  Lemma f_op m d o il : fsim V e z (read_op m d o il) (g_read_op R m d o il).
  Proof.
    intros s l Hv. unfold read_op, g_read_op. pose proof (f_op_byte s l Hv) as H. destruct (read_op_byte l) as [[[ot sz] r]|e1| |]; try (bad H). destruct H as (s1 & -> & K1 & T1). cbn [bind].
    assert (E : (match ot, sz with TRun, Done _ => Ok tt | TRun, _ => Err InvalidData | _, _ => Ok tt end = Ok tt) \/ (match ot, sz with TRun, Done _ => Ok tt | TRun, _ => Err InvalidData | _, _ => Ok tt end = Err InvalidData)) by (destruct ot, sz; auto).
    destruct E as [E|E]; rewrite E; cbn [bind]; [|right; split; [reflexivity|]; intro t; rewrite T1; cbn [bind]; rewrite E; reflexivity].
    pose proof (f_size sz s1 r K1) as H. cbv beta in H.
    assert (G : forall t, read_op m d o il (l ++ t) = do (n, bs) <- match sz with Done n => Ok (n, r ++ t) | U8And62 => do (b, bs) <- read_u8 (r ++ t); Ok (b + 62, bs) | U16 => read_u16 (r ++ t) end;
      match ot with
      | TCopy s =>
          do (i, bs) <- read_i_varint m bs;
          match s with
          | Dict => do a <- diff_addresses_to_u64 m d i; Ok (Copy Dict a n, a, o, bs)
          | Output => do a <- diff_addresses_to_u64 m o i; Ok (Copy Output a n, d, a, bs)
          end
      | TAdd =>
          if il
          then do (b, bs) <- read_exact n bs; Ok (Add b, d, o, bs)
          else Ok (Add (rep 0 n), d, o, bs)
      | TRun => do (b, bs) <- read_u8 bs; Ok (Run b n, d, o, bs)
      end) by (intro t; unfold read_op; rewrite T1; cbn [bind]; rewrite E; reflexivity).
    unfold read_op in G. clear T1 E.
    destruct (match sz with Done n => Ok (n, r) | U8And62 => do (b, bs) <- read_u8 r; Ok (b + 62, bs) | U16 => read_u16 r end) as [[n r2]|e1| |].
    - destruct H as (s2 & -> & K2 & T2). assert (G2 := fun t => eq_trans (G t) (f_equal (fun x => bind x _) (T2 t))). cbn [bind] in G2. clear G T2. cbn [bind]. destruct ot as [[|]| |].
      + fs (f_i_varint m _ _ K2). destruct (diff_addresses_to_u64 m d z0) eqn:E; cbn [bind]; [ok|er..].
      + fs (f_i_varint m _ _ K2). destruct (diff_addresses_to_u64 m o z0) eqn:E; cbn [bind]; [ok|er..].
      + destruct il; [|ok]. fs (f_exact n _ _ K2). ok.
      + fs (f_u8 _ _ K2). ok.
    - bad H.
    - bad H.
    - bad H.
  Qed.
  Lemma f_ops_loop m f : forall k k' n d o cs na s l, V s l -> (length l < k)%nat -> (length l < k')%nat ->
    match read_ops_loop k m f n d o cs na l with
    | Ok (v, w, x, rest) => exists s', g_read_ops_loop R k' m f n d o cs na s = Ok (v, w, x, s') /\ V s' rest /\ forall t k2, (length (l ++ t) < k2)%nat -> read_ops_loop k2 m f n d o cs na (l ++ t) = Ok (v, w, x, rest ++ t)
    | Err y => reported e z (g_read_ops_loop R k' m f n d o cs na s) \/ g_read_ops_loop R k' m f n d o cs na s = Err y /\ forall t k2, (length (l ++ t) < k2)%nat -> read_ops_loop k2 m f n d o cs na (l ++ t) = Err y
    | Panic => reported e z (g_read_ops_loop R k' m f n d o cs na s) \/ g_read_ops_loop R k' m f n d o cs na s = Panic /\ forall t k2, (length (l ++ t) < k2)%nat -> read_ops_loop k2 m f n d o cs na (l ++ t) = Panic
    | Diverge => reported e z (g_read_ops_loop R k' m f n d o cs na s) \/ g_read_ops_loop R k' m f n d o cs na s = Diverge /\ forall t k2, (length (l ++ t) < k2)%nat -> read_ops_loop k2 m f n d o cs na (l ++ t) = Diverge
    end.
  Proof.
    induction k as [|k IH]; intros k' n d o cs na s l Hv Hk Hk'; [lia|]. destruct k' as [|k']; [lia|]. cbn [read_ops_loop g_read_ops_loop]. destruct (n <=? 0) eqn:En.
    { exists s. split; [reflexivity|]. split; [exact Hv|]. intros t k2 _. destruct k2; cbn [read_ops_loop]; rewrite En; reflexivity. }
    assert (B : forall (r : list Z -> res (list op * Z * Z * list Z)), (forall t k2, (length (l ++ t) < S k2)%nat -> read_ops_loop (S k2) m f n d o cs na (l ++ t) = r t) -> forall t k2, (length (l ++ t) < k2)%nat -> read_ops_loop k2 m f n d o cs na (l ++ t) = r t).
    { intros r H t [|k2] H2; [lia|]. apply H. exact H2. }
    pose proof (f_op m d o (negb (is_segregated f)) s l Hv) as H.
    destruct (read_op m d o (negb (is_segregated f)) l) as [[[[x d'] o'] r]|e1| |] eqn:E;
      try (destruct H as [H|[-> T]]; [left; rb H|right; split; [reflexivity|apply (B (fun _ => _)); intros t k2 _; cbn [read_ops_loop]; rewrite En, T; reflexivity]]).
    destruct H as (s1 & -> & K1 & T1). cbn [bind]. apply read_op_consumes in E.
    assert (B2 : forall (r2 : list Z -> res (list op * Z * Z * list Z)), (forall t k2, (length (r ++ t) < k2)%nat -> 
        (do cs <- arith m to_u32 (cs + oal x);
         do nadd <- (if is_segregated f && is_add x then arith m to_u32 (na + oal x) else Ok na);
         do (ops, cs, nadd, bs) <- read_ops_loop k2 m f (n - 1) d' o' cs nadd (r ++ t);
         Ok (x :: ops, cs, nadd, bs)) = r2 t) -> forall t k2, (length (l ++ t) < k2)%nat -> read_ops_loop k2 m f n d o cs na (l ++ t) = r2 t).
    { intros r2 H. apply B. intros t k2 H2. cbn [read_ops_loop]. rewrite En, T1. cbn [bind]. apply H. rewrite app_length in *. lia. }
    clear B T1. destruct (arith m to_u32 (cs + oal x)) as [cs'|e1| |] eqn:E1; cbn [bind]; try (right; split; [reflexivity|apply (B2 (fun _ => _)); intros t k2 _; reflexivity]).
    destruct (if is_segregated f && is_add x then arith m to_u32 (na + oal x) else Ok na) as [na'|e1| |] eqn:E2; cbn [bind]; try (right; split; [reflexivity|apply (B2 (fun _ => _)); intros t k2 _; reflexivity]).
    specialize (IH k' (n - 1) d' o' cs' na' s1 r K1 ltac:(lia) ltac:(lia)). destruct (read_ops_loop k m f (n - 1) d' o' cs' na' r) as [[[[l' c2] n2] r']|e1| |];
      try (destruct IH as [IH|[-> T]]; [left; rb IH|right; split; [reflexivity|apply (B2 (fun _ => _)); intros t k2 H2; cbn [bind]; rewrite T by exact H2; reflexivity]]).
    destruct IH as (s2 & -> & K2 & T). cbn [bind]. eexists. split; [reflexivity|]. split; [exact K2|]. apply (B2 (fun t => Ok (_, _, _, _ ++ t))). intros t k2 H2. cbn [bind]. rewrite T by exact H2. reflexivity.
  Qed.
  Lemma f_fill : forall ops, fsim V e z (fill_adds ops) (g_fill_adds R ops).
  Proof.
    induction ops as [|o ops IH]; intros s l Hv; cbn [fill_adds g_fill_adds]; [ok|]. destruct o as [bs|x n|c a n].
    - fs (f_exact (zlen bs) s l Hv). fs (IH _ _ Hv0). ok.
    - fs (IH _ _ Hv). ok.
    - fs (IH _ _ Hv). ok.
  Qed.
  Lemma f_ops_no_comp m h : fsim V e z (read_ops_no_comp m h) (g_read_ops_no_comp R m h).
  Proof.
    intros s l Hv. unfold read_ops_no_comp, g_read_ops_no_comp. pose proof (f_ops_loop m (h_format h) (S (length l)) (S (rd_most R s)) (h_nops h) 0 0 0 (h_nadd h) s l Hv ltac:(lia) (fmost_len s l Hv)) as H.
    destruct (read_ops_loop (S (length l)) m (h_format h) (h_nops h) 0 0 0 (h_nadd h) l) as [[[[l' c2] n2] r]|e1| |];
      try (destruct H as [H|[-> T]]; [left; rb H|right; split; [reflexivity|intro t; rewrite T by lia; reflexivity]]).
    destruct H as (s1 & -> & K1 & T). assert (T1 := fun t => T t (S (length (l ++ t))) (Nat.lt_succ_diag_r _)). clear T. cbn [bind].
    destruct (negb (c2 =? h_osize h)) eqn:En; [er|]. destruct (h_format h) eqn:Ef; [ok|]. fs (f_fill l' _ _ K1). ok.
  Qed.
  Lemma f_section m : fsim V e z (read_section m) (g_read_section R m).
  Proof.
    intros s l Hv. unfold read_section, g_read_section. fs (f_header m s l Hv). pose proof (f_ops_no_comp m h _ _ Hv0) as H.
    destruct (read_ops_no_comp m h l0) as [[[ops h'] r]|e1| |]; try bad H. destruct H as (s1 & -> & K & T). ok.
  Qed.
  Lemma f_loop (next : list Z -> res (list op * header * list Z)) (gnext : St -> res (list op * header * St)) (gloop : nat -> St -> sink -> Z -> sink * res St) dict :
    fsim V e z next gnext -> (forall bs ops h r, next bs = Ok (ops, h, r) -> (length r < length bs)%nat) ->
    (forall k bs s pos, gloop (S k) bs s pos = match gnext bs with
      | Ok (ops, h, rest) =>
          match apply_ops dict ops s pos with
          | (s', pos', Ok _) => if h_more h then gloop k rest s' pos' else (s', Ok rest)
          | (s', _, Err e) => (s', Err e)
          | (s', _, Panic) => (s', Panic)
          | (s', _, Diverge) => (s', Diverge)
          end
      | Err e => (s, Err e)
      | Panic => (s, Panic)
      | Diverge => (s, Diverge)
      end) ->
    forall k k' b l s pos, V b l -> (length l < k)%nat -> (length l < k')%nat ->
    let '(s', r) := apply_loop next k dict l s pos in
    fst (gloop k' b s pos) = s' /\
    match r with
    | Ok rest => exists b', snd (gloop k' b s pos) = Ok b' /\ V b' rest /\ forall t k2, (length (l ++ t) < k2)%nat -> apply_loop next k2 dict (l ++ t) s pos = (s', Ok (rest ++ t))
    | Err y => reported e z (snd (gloop k' b s pos)) \/ snd (gloop k' b s pos) = Err y /\ forall t k2, (length (l ++ t) < k2)%nat -> apply_loop next k2 dict (l ++ t) s pos = (s', Err y)
    | Panic => reported e z (snd (gloop k' b s pos)) \/ snd (gloop k' b s pos) = Panic /\ forall t k2, (length (l ++ t) < k2)%nat -> apply_loop next k2 dict (l ++ t) s pos = (s', Panic)
    | Diverge => reported e z (snd (gloop k' b s pos)) \/ snd (gloop k' b s pos) = Diverge /\ forall t k2, (length (l ++ t) < k2)%nat -> apply_loop next k2 dict (l ++ t) s pos = (s', Diverge)
    end.
  Proof.
    intros Hn Hsh Hl. induction k as [|k IH]; intros k' b l s pos Hv Hk Hk'; [lia|]. destruct k' as [|k']; [lia|]. rewrite Hl. cbn [apply_loop].
    assert (B : forall r : list Z -> _, (forall t k2, (length (l ++ t) < S k2)%nat -> apply_loop next (S k2) dict (l ++ t) s pos = r t) -> forall t k2, (length (l ++ t) < k2)%nat -> apply_loop next k2 dict (l ++ t) s pos = r t).
    { intros r H t [|k2] H2; [lia|]. apply H. exact H2. }
    pose proof (Hn b l Hv) as H. destruct (next l) as [[[ops h] r]|e1| |] eqn:E;
      try (destruct H as [[-> |[Hz ->]]|[-> T]]; (split; [reflexivity|]);
        [left; left; reflexivity|left; right; split; [exact Hz|reflexivity]|right; split; [reflexivity|]; apply (B (fun _ => _)); intros t k2 _; cbn [apply_loop]; rewrite T; reflexivity]).
    destruct H as (b1 & -> & K1 & T). apply Hsh in E.
    destruct (apply_ops dict ops s pos) as [[s' p'] [u|e1| |]] eqn:Eo;
      try (split; [reflexivity|]; right; split; [reflexivity|]; apply (B (fun _ => _)); intros t k2 _; cbn [apply_loop]; rewrite T, Eo; reflexivity).
    destruct (h_more h) eqn:Em.
    - specialize (IH k' b1 r s' p' K1 ltac:(lia) ltac:(lia)). destruct (apply_loop next k dict r s' p') as [s2 [r2|e1| |]]; destruct IH as [E2 IH]; (split; [exact E2|]).
      + destruct IH as (b' & E3 & K & T2). exists b'. split; [exact E3|]. split; [exact K|]. apply (B (fun t => (_, Ok (_ ++ t)))). intros t k2 H2. cbn [apply_loop]. rewrite T, Eo, Em. apply T2. rewrite app_length in *. lia.
      + destruct IH as [IH|[E3 T2]]; [left; exact IH|right]. split; [exact E3|]. apply (B (fun _ => _)). intros t k2 H2. cbn [apply_loop]. rewrite T, Eo, Em. apply T2. rewrite app_length in *. lia.
      + destruct IH as [IH|[E3 T2]]; [left; exact IH|right]. split; [exact E3|]. apply (B (fun _ => _)). intros t k2 H2. cbn [apply_loop]. rewrite T, Eo, Em. apply T2. rewrite app_length in *. lia.
      + destruct IH as [IH|[E3 T2]]; [left; exact IH|right]. split; [exact E3|]. apply (B (fun _ => _)). intros t k2 H2. cbn [apply_loop]. rewrite T, Eo, Em. apply T2. rewrite app_length in *. lia.
    - split; [reflexivity|]. exists b1. split; [reflexivity|]. split; [exact K1|]. apply (B (fun t => (_, Ok (_ ++ t)))). intros t k2 H2. cbn [apply_loop]. rewrite T, Eo, Em. reflexivity.
  Qed.
End Sim.
Lemma buffered_breaks {St} (R : reader St) V e : breaks R V e -> breaks (buffered R) (fun b l => exists l', l = fst b ++ l' /\ V (snd b) l') e.
Proof.
  intros HR [have r] l (l' & -> & Hv). cbn [fst snd] in *. destruct (HR r l' Hv) as [Hl Hrd]. split; [cbn [buffered rd_most fst snd]; rewrite app_length; lia|]. intros n Hn. cbn [buffered rd_read rd_most buf_read fst snd].
  destruct have as [|x have].
  - cbn [app length]. destruct (Z.geb_spec n BUF_SIZE).
    + specialize (Hrd n Hn). destruct (rd_read R n r) as [bs r'|r'|e']; [|destruct Hrd as [A B]; split; [exists l'; auto|cbn [fst snd length]; lia]|exact Hrd].
      destruct Hrd as (l2 & E & A & B & C & D). exists l2. split; [exact E|]. split; [exact A|]. split; [exact B|]. cbn [fst snd length app]. split; [eauto|lia].
    + specialize (Hrd BUF_SIZE ltac:(reflexivity)). destruct (rd_read R BUF_SIZE r) as [bs r'|r'|e']; [|destruct Hrd as [A B]; split; [exists l'; auto|cbn [fst snd length]; lia]|exact Hrd].
      destruct Hrd as (l2 & -> & A & B & C & D). exists (drop n bs ++ l2). split; [now rewrite app_assoc, take_drop|]. split; [|split; [rewrite zlen_take_min by lia; lia|split; [cbn [fst snd]; eauto|]]].
      * intro E. apply A, zlen_0. pose proof (zlen_nonneg bs). assert (X : zlen (take n bs) = 0) by now rewrite E. rewrite zlen_take_min in X by lia. lia.
      * cbn [fst snd]. assert (length (take n bs) + length (drop n bs) = length bs)%nat by (rewrite <- app_length; now rewrite take_drop). lia.
  - set (c := x :: have). exists (drop n c ++ l'). split; [now rewrite app_assoc, take_drop|]. assert (Hc : 1 <= zlen c) by (unfold c; rewrite zlen_cons; pose proof (zlen_nonneg have); lia).
    split; [|split; [rewrite zlen_take_min by lia; lia|split; [cbn [fst snd]; eauto|]]].
    + intro E. assert (X : zlen (take n c) = 0) by now rewrite E. rewrite zlen_take_min in X by lia. lia.
    + cbn [fst snd]. assert (length (take n c) + length (drop n c) = length c)%nat by (rewrite <- app_length; now rewrite take_drop). unfold c in *. lia.
Qed.
(** What is needed of the external decoders on the buffered reader: if they finish before the failure, they do what they do on the bytes, whatever would follow; otherwise they report the
    failure (zstd, if [z], by the panic of the unwrapped constructor). *)
Definition ext_breaks {St} (V : St -> list Z -> Prop) (e : err) (z : bool) (cd : codecs) (xd : Z -> list Z * St -> res (list Z * (list Z * St))) : Prop :=
  forall have s l algo, algo = 2 \/ algo = 3 -> V s l -> let dec := if algo =? 2 then zstd_dec cd else brotli_dec cd in
  match dec (have ++ l) with
  | Ok (v, rest) => exists have' s' l', xd algo (have, s) = Ok (v, (have', s')) /\ V s' l' /\ rest = have' ++ l' /\ forall t, dec (have ++ l ++ t) = Ok (v, rest ++ t)
  | Err x => reported e (z && (algo =? 2)) (xd algo (have, s)) \/ xd algo (have, s) = Err x /\ forall t, dec (have ++ l ++ t) = Err x
  | Panic => reported e (z && (algo =? 2)) (xd algo (have, s)) \/ xd algo (have, s) = Panic /\ forall t, dec (have ++ l ++ t) = Panic
  | Diverge => reported e (z && (algo =? 2)) (xd algo (have, s)) \/ xd algo (have, s) = Diverge /\ forall t, dec (have ++ l ++ t) = Diverge
  end.
Lemma reported_and {A} e z b (r : res A) : reported e (z && b) r -> reported e z r.
Proof. intros [H|[H ->]]; [left; exact H|right]. apply andb_prop in H as [H _]. auto. Qed.
Lemma f_next {St} (R : reader St) V e z m cd xd : breaks R V e -> ext_breaks V e z cd xd ->
  fsim (fun b l => exists l', l = fst b ++ l' /\ V (snd b) l') e z (next_section m cd) (g_next_section (buffered R) m xd).
Proof.
  intros HR Hx. pose proof (buffered_breaks R V e HR) as HB. set (B := buffered R) in *. set (W := fun (b : list Z * St) l => exists l', l = fst b ++ l' /\ V (snd b) l') in *. intros b l Hv. unfold next_section, g_next_section.
  pose proof (f_header B W e z HB m b l Hv) as H. destruct (read_section_header m l) as [[h r]|e1| |];
    try (destruct H as [H|[-> T]]; [left; apply rep_bind, H|right; split; [reflexivity|intro t; rewrite T; reflexivity]]).
  destruct H as (b1 & -> & K1 & T1). cbn [bind].
  assert (Hgo : forall (P : res (list op * header * list Z) -> Prop) r1, (forall t, (if h_comp h =? 1 then
    match apply_no_sec_comp m None (r ++ t) (mkSink [] 0) with
    | (s, Ok rest) => do (ops, h, _) <- read_ops_no_comp m h (sbuf s); Ok (ops, h, rest)
    | (_, Err e) => Err e
    | (_, Panic) => Panic
    | (_, Diverge) => Diverge
    end
  else if h_comp h =? 2 then
    do (dec, rest) <- zstd_dec cd (r ++ t);
    do (ops, h, _) <- read_ops_no_comp m h dec; Ok (ops, h, rest)
  else if h_comp h =? 3 then
    do (dec, rest) <- brotli_dec cd (r ++ t);
    do (ops, h, _) <- read_ops_no_comp m h dec; Ok (ops, h, rest)
  else read_ops_no_comp m h (r ++ t)) = r1 t) -> forall t, next_section m cd (l ++ t) = r1 t).
  { intros _ r1 H t. rewrite <- H. unfold next_section. rewrite T1. reflexivity. }
  specialize (Hgo (fun _ => True)). unfold next_section in Hgo. destruct (h_comp h =? 1); [|destruct (h_comp h =? 2); [|destruct (h_comp h =? 3)]].
  - unfold apply_no_sec_comp in *.
    pose proof (f_loop W e z (read_section m) (g_read_section B m) (g_apply_loop B m) None (f_section B W e z HB m)) as L. specialize (L (fun bs ops h r E => Nat.le_lt_trans _ _ _ (Nat.le_add_l _ _) (section_count m bs ops h r E))).
    specialize (L ltac:(intros; reflexivity) (S (length r)) (S (rd_most B b1)) b1 r (mkSink [] 0) 0 K1 ltac:(lia) (fmost_len B W e HB b1 r K1)).
    destruct (apply_loop (read_section m) (S (length r)) None r (mkSink [] 0) 0) as [s [r2|e1| |]]; destruct (g_apply_loop B m (S (rd_most B b1)) b1 (mkSink [] 0) 0) as [s2 r3]; cbn [fst snd] in L; destruct L as [-> L];
      try (destruct L as [[-> |[Hz ->]]|[-> T]]; [left; left; reflexivity|left; right; auto|right; split; [reflexivity|apply (Hgo (fun _ => _)); intro t; rewrite (T t _ (Nat.lt_succ_diag_r _)); reflexivity]]).
    destruct L as (b2 & -> & K2 & T).
    destruct (read_ops_no_comp m h (sbuf s)) as [[[l2 h'] x]|e1| |] eqn:E; cbn [bind];
      try (right; split; [reflexivity|apply (Hgo (fun _ => _)); intro t; rewrite (T t _ (Nat.lt_succ_diag_r _)), E; reflexivity]).
    eexists. split; [reflexivity|]. split; [exact K2|]. apply (Hgo (fun t => Ok (_, _, _ ++ t))). intro t. rewrite (T t _ (Nat.lt_succ_diag_r _)), E. reflexivity.
  - destruct b1 as [have s]. destruct K1 as (l1 & -> & K1). cbn [fst snd] in K1. pose proof (Hx have s l1 2 (or_introl eq_refl) K1) as H. cbv zeta in H. cbn [fst snd] in *. change (2 =? 2) with true in H. cbv iota in H.
    destruct (zstd_dec cd (have ++ l1)) as [[d r]|e1| |];
      try (destruct H as [H|[-> T]]; [left; apply rep_bind; exact (reported_and _ _ _ _ H)|right; split; [reflexivity|apply (Hgo (fun _ => _)); intro t; rewrite <- app_assoc, T; reflexivity]]).
    destruct H as (h2 & s2 & l2 & -> & K2 & -> & T). cbn [bind].
    destruct (read_ops_no_comp m h d) as [[[o h'] x]|e1| |] eqn:E; cbn [bind]; try (right; split; [reflexivity|apply (Hgo (fun _ => _)); intro t; rewrite <- app_assoc, T; cbn [bind]; rewrite E; reflexivity]).
    eexists. split; [reflexivity|]. split; [exists l2; auto|]. apply (Hgo (fun t => Ok (_, _, _ ++ t))). intro t. rewrite <- app_assoc, T. cbn [bind]. rewrite E. reflexivity.
  - destruct b1 as [have s]. destruct K1 as (l1 & -> & K1). cbn [fst snd] in K1. pose proof (Hx have s l1 3 (or_intror eq_refl) K1) as H. cbv zeta in H. cbn [fst snd] in *. change (3 =? 2) with false in H. cbv iota in H.
    destruct (brotli_dec cd (have ++ l1)) as [[d r]|e1| |];
      try (destruct H as [H|[-> T]]; [left; apply rep_bind; exact (reported_and _ _ _ _ H)|right; split; [reflexivity|apply (Hgo (fun _ => _)); intro t; rewrite <- app_assoc, T; reflexivity]]).
    destruct H as (h2 & s2 & l2 & -> & K2 & -> & T). cbn [bind].
    destruct (read_ops_no_comp m h d) as [[[o h'] x]|e1| |] eqn:E; cbn [bind]; try (right; split; [reflexivity|apply (Hgo (fun _ => _)); intro t; rewrite <- app_assoc, T; cbn [bind]; rewrite E; reflexivity]).
    eexists. split; [reflexivity|]. split; [exists l2; auto|]. apply (Hgo (fun t => Ok (_, _, _ ++ t))). intro t. rewrite <- app_assoc, T. cbn [bind]. rewrite E. reflexivity.
  - pose proof (f_ops_no_comp B W e z HB m h b1 r K1) as H. destruct (read_ops_no_comp m h r) as [[[o h'] x]|e1| |];
      try (destruct H as [H|[-> T]]; [left; exact H|right; split; [reflexivity|apply (Hgo (fun _ => _)); intro t; rewrite T; reflexivity]]).
    destruct H as (s' & -> & K & T). eexists. split; [reflexivity|]. split; [exact K|]. apply (Hgo (fun t => Ok (_, _, _ ++ t))). intro t. apply T.
Qed.

(** ** C100 *)
(** Reading over a reader [q] against reading the bytes [f]: the failure is reported (and then the bytes before it are not enough), or it comes too late to matter. *)
Definition broken_ok {A} (e : err) (z : bool) (f : list Z -> res A) (bytes : list Z) (q : res A) : Prop :=
  (forall a, f bytes <> Ok a) /\ reported e z q \/ q = f bytes /\ forall t, f (bytes ++ t) = f bytes.
(** C100. apply_patch with a patch reader that gives [bytes] and then fails: the sink gets exactly what applying [bytes] gives; and either the failure is reported, or the result is that of the
    bytes whatever could have followed. *)
Theorem C100_apply : forall St (R : reader St) V e z m cd xd patch bytes dict sink, breaks R V e -> codecs_shrink cd -> ext_breaks V e z cd xd -> V patch bytes ->
  let '(s', r) := apply_patch m cd bytes dict sink in
  fst (g_apply_patch R m xd patch dict sink) = s' /\
  (r <> Ok tt /\ reported e z (snd (g_apply_patch R m xd patch dict sink)) \/
   snd (g_apply_patch R m xd patch dict sink) = r /\ forall t, apply_patch m cd (bytes ++ t) dict sink = (s', r)).
Proof.
  intros St R V e z m cd xd patch bytes dict sink HR Hsh Hx Hv. unfold g_apply_patch, apply_patch. pose proof (buffered_breaks R V e HR) as HB. set (B := buffered R) in *. set (W := fun (b : list Z * St) l => exists l', l = fst b ++ l' /\ V (snd b) l') in *.
  assert (Hw : W ([], patch) bytes) by (exists bytes; auto).
  pose proof (f_loop W e z (next_section m cd) (g_next_section B m xd) (fun k => g_patch_loop B m xd k dict) dict (f_next R V e z m cd xd HR Hx) (next_section_shrink m cd Hsh) ltac:(intros; reflexivity)
    (S (length bytes)) (S (rd_most B ([], patch))) ([], patch) bytes sink 0 Hw ltac:(lia) (fmost_len B W e HB _ _ Hw)) as L.
  cbv beta in L. destruct (apply_loop (next_section m cd) (S (length bytes)) dict bytes sink 0) as [s' r]. destruct (g_patch_loop B m xd (S (rd_most B ([], patch))) dict ([], patch) sink 0) as [s2 r2].
  destruct L as [L1 L]. cbn [fst snd] in *. subst s2. split; [reflexivity|]. destruct r as [r|y| |]; cbn [bind].
  - destruct L as (b' & -> & _ & T). right. split; [reflexivity|]. intro t. rewrite (T t _ (Nat.lt_succ_diag_r _)). reflexivity.
  - destruct L as [[-> |[Hz ->]]|[-> T]]; [left; split; [discriminate|left; reflexivity]|left; split; [discriminate|right; auto]|right; split; [reflexivity|intro t; rewrite (T t _ (Nat.lt_succ_diag_r _)); reflexivity]].
  - destruct L as [[-> |[Hz ->]]|[-> T]]; [left; split; [discriminate|left; reflexivity]|left; split; [discriminate|right; auto]|right; split; [reflexivity|intro t; rewrite (T t _ (Nat.lt_succ_diag_r _)); reflexivity]].
  - destruct L as [[-> |[Hz ->]]|[-> T]]; [left; split; [discriminate|left; reflexivity]|left; split; [discriminate|right; auto]|right; split; [reflexivity|intro t; rewrite (T t _ (Nat.lt_succ_diag_r _)); reflexivity]].
Qed.
Lemma f_extract_loop {St} (R : reader St) V e z m cd xd : breaks R V e -> codecs_shrink cd -> ext_breaks V e z cd xd ->
  forall k k' b l pos st, (exists l', l = fst b ++ l' /\ V (snd b) l') -> (length l < k)%nat -> (length l < k')%nat ->
  (forall a, extract_loop k m cd l pos st <> Ok a) /\ reported e z (g_extract_loop (buffered R) m xd k' b pos st) \/
  g_extract_loop (buffered R) m xd k' b pos st = extract_loop k m cd l pos st /\ forall t k2, (length (l ++ t) < k2)%nat -> extract_loop k2 m cd (l ++ t) pos st = extract_loop k m cd l pos st.
Proof.
  intros HR Hsh Hx. induction k as [|k IH]; intros k' b l pos st Hv Hk Hk'; [lia|]. destruct k' as [|k']; [lia|]. cbn [extract_loop g_extract_loop].
  pose proof (f_next R V e z m cd xd HR Hx b l Hv) as H. cbv beta in H.
  assert (B : forall r, (forall t k2, (length (l ++ t) < S k2)%nat -> extract_loop (S k2) m cd (l ++ t) pos st = r) -> forall t k2, (length (l ++ t) < k2)%nat -> extract_loop k2 m cd (l ++ t) pos st = r).
  { intros r H0 t [|k2] H2; [lia|]. apply H0. exact H2. }
  destruct (next_section m cd l) as [[[ops h] r]|y| |] eqn:E;
    try (destruct H as [H|[-> T]]; [left; split; [intros a Ha; discriminate Ha|apply rep_bind, H]|right; split; [reflexivity|apply B; intros t k2 _; cbn [extract_loop]; rewrite T; reflexivity]]).
  destruct H as (s1 & -> & K & T). apply (next_section_shrink m cd Hsh) in E. cbn [bind]. destruct (extract_ops ops pos st) as [[l1 p1] st1] eqn:Eo. destruct (h_more h) eqn:Em.
  - specialize (IH k' s1 r p1 st1 K ltac:(lia) ltac:(lia)). destruct IH as [[N Q]|[Q T2]].
    + left. split; [|apply rep_bind, Q]. intros a Ha. apply bind_ok in Ha as (y & Ey & _). exact (N _ Ey).
    + right. split; [rewrite Q; reflexivity|]. apply B. intros t k2 H2. cbn [extract_loop]. rewrite T. cbn [bind]. rewrite Eo, Em. rewrite T2; [reflexivity|]. rewrite app_length in *. lia.
  - right. split; [reflexivity|]. apply B. intros t k2 H2. cbn [extract_loop]. rewrite T. cbn [bind]. rewrite Eo, Em. reflexivity.
Qed.
Lemma f_extract {St} (R : reader St) V e z m cd xd patch bytes : breaks R V e -> codecs_shrink cd -> ext_breaks V e z cd xd -> V patch bytes ->
  broken_ok e z (extract_patch_instructions m cd) bytes (g_extract R m xd patch).
Proof.
  intros HR Hsh Hx Hv. unfold g_extract, extract_patch_instructions. assert (Hw : exists l', bytes = fst (@nil Z, patch) ++ l' /\ V (snd (@nil Z, patch)) l') by (exists bytes; auto).
  destruct (f_extract_loop R V e z m cd xd HR Hsh Hx (S (length bytes)) (S (rd_most (buffered R) ([], patch))) ([], patch) bytes 0 stats_new Hw ltac:(lia)
    (fmost_len (buffered R) _ e (buffered_breaks R V e HR) _ _ Hw)) as [H|[H T]]; [left; exact H|right]. split; [exact H|]. intro t. apply T. lia.
Qed.
(** C100. The same for the merger and the transcoder, which has not written anything then. *)
Theorem C100_merge_and_transcode : forall St (R : reader St) V e z m cd xd patch bytes, breaks R V e -> codecs_shrink cd -> ext_breaks V e z cd xd -> V patch bytes ->
  broken_ok e z (merger_new m cd) bytes (g_merger_new R m xd patch) /\
  (forall g, broken_ok e z (merger_merge m cd g) bytes (g_merger_merge R m xd g patch)) /\
  (forall f sc seg, snd (transcode m cd bytes f sc seg) <> Ok tt /\ fst (g_transcode R m xd cd patch f sc seg) = [] /\ reported e z (snd (g_transcode R m xd cd patch f sc seg)) \/
     g_transcode R m xd cd patch f sc seg = transcode m cd bytes f sc seg /\ forall t, transcode m cd (bytes ++ t) f sc seg = transcode m cd bytes f sc seg).
Proof.
  intros St R V e z m cd xd patch bytes HR Hsh Hx Hv. destruct (f_extract R V e z m cd xd patch bytes HR Hsh Hx Hv) as [[N Q]|[Q T]].
  - split; [|split].
    + left. split; [|apply rep_bind, Q]. intros a Ha. apply bind_ok in Ha as (y & Ey & _). exact (N _ Ey).
    + intro g. unfold broken_ok, merger_merge, g_merger_merge. destruct (debug_assert_ m (contiguousb 0 (mg_patch g))) as [u|y| |]; cbn [bind]; [|right; split; [reflexivity|intro; reflexivity]..].
      left. split; [|apply rep_bind, Q]. intros a Ha. apply bind_ok in Ha as (y & Ey & _). exact (N _ Ey).
    + intros f sc seg. left. unfold transcode, g_transcode. split; [|destruct Q as [-> |[Hz ->]]; split; try reflexivity; [left|right]; auto].
      destruct (extract_patch_instructions m cd bytes) as [y|y| |]; [now elim (N y)|discriminate..].
  - unfold broken_ok, merger_new, g_merger_new, merger_merge, g_merger_merge, transcode, g_transcode. rewrite Q. split; [|split].
    + right. split; [reflexivity|]. intro t. rewrite T. reflexivity.
    + intro g. right. split; [reflexivity|]. intro t. rewrite T. reflexivity.
    + intros f sc seg. right. split; [reflexivity|]. intro t. rewrite T. reflexivity.
Qed.
Lemma any_sink m cd patch src out ops : codecs_shrink cd -> reads_as m cd patch ops -> Forall op_ok ops -> run_ops src [] ops = Some out ->
  forall old0 p0, exists p1, apply_patch m cd patch (Some src) (mkSink old0 p0) = (mkSink (out ++ drop (zlen out) old0) p1, Ok tt).
Proof.
  intros Hsh (secs & r & Hp & ->) Hok Hrun old0 p0. unfold apply_patch. pose proof (patch_read_len m cd Hsh _ _ _ Hp) as Hl.
  assert (G : forall bs secs r, patch_read (next_section m cd) bs secs r -> forall k o p o', (length secs < k)%nat -> Forall op_ok (concat (map fst secs)) -> run_ops src o (concat (map fst secs)) = Some o' ->
      exists p', apply_loop (next_section m cd) k (Some src) bs (mkSink (over o old0) p) (zlen o) = (mkSink (over o' old0) p', Ok r)).
  { clear. induction 1 as [bs ops h r E Em|bs ops h r secs r' E Em _ IH]; intros k o p o' Hk Hok Hr; (destruct k as [|k]; [lia|]); cbn [apply_loop map concat fst] in *; rewrite E.
    - rewrite app_nil_r in *. rewrite apply_ops_spec by now apply ops_ok_nonneg. rewrite (perform_old src old0 ops o o' (ops_ok_nonneg _ Hok) Hr). rewrite Em. eauto.
    - apply Forall_app in Hok as [H1 H2]. rewrite run_ops_app in Hr. destruct (run_ops src o ops) as [o1|] eqn:E1; [|discriminate].
      rewrite apply_ops_spec by now apply ops_ok_nonneg. rewrite (perform_old src old0 ops o o1 (ops_ok_nonneg _ H1) E1). rewrite Em. apply IH; [cbn in Hk; lia|exact H2|exact Hr]. }
  destruct (G _ _ _ Hp (S (length patch)) [] p0 out ltac:(lia) Hok Hrun) as (p' & E). rewrite over_0 in E. change (zlen (@nil Z)) with 0 in E. rewrite E. eauto.
Qed.
(** C100. A patch made by the tools of which the reader gives only a part: the failure is always reported, by every tool, and the sink holds a beginning of the target. *)
Theorem C100_cut_patch : forall St (R : reader St) V e z m cd xd patch p src out c1 c2 old, breaks R V e -> codecs_shrink cd -> codecs_cut cd -> ext_breaks V e z cd xd ->
  made cd p src out -> p = c1 ++ c2 -> c2 <> [] -> V patch c1 ->
  reported e z (snd (g_apply_patch R m xd patch (Some src) (mkSink old 0))) /\
  (exists out1 x pos, fst (g_apply_patch R m xd patch (Some src) (mkSink old 0)) = mkSink (out1 ++ drop (zlen out1) old) pos /\ out = out1 ++ x) /\
  reported e z (g_merger_new R m xd patch) /\
  (forall g, m = Release \/ contiguousb 0 (mg_patch g) = true -> reported e z (g_merger_merge R m xd g patch)) /\
  (forall f sc seg, fst (g_transcode R m xd cd patch f sc seg) = [] /\ reported e z (snd (g_transcode R m xd cd patch f sc seg))).
Proof.
  intros St R V e z m cd xd patch p src out c1 c2 old HR Hsh Hcut Hx Hm E Hne Hv.
  destruct (C78_interrupted_write_is_detected m cd p src out c1 c2 Hcut Hm E Hne) as (D1 & _).
  assert (DX : forall y, extract_patch_instructions m cd c1 <> Ok y).
  { destruct (cut_stream m _ _ _ _ Hcut Hm) as (secs & Hs & _). intros y X. apply extract_sim in X.
    rewrite (extract_trunc m _ _ _ Hs (S (length c1)) c1 c2 0 stats_new E Hne (Nat.lt_succ_diag_r _)) in X. discriminate. }
  destruct (C75_every_workflow cd p src out Hm m) as (HA & Hs & Ho & ops & HR2 & Hg). destruct (applies_extract m cd p src out _ HA HR2 (good_ok _ Hg)) as [HE Hrun].
  assert (HX : reported e z (g_extract R m xd patch)).
  { destruct (f_extract R V e z m cd xd patch c1 HR Hsh Hx Hv) as [[_ H]|[_ T]]; [exact H|]. exfalso. specialize (T c2). rewrite <- E, HE in T.
    exact (DX _ (eq_sym T)). }
  split; [|split; [|split; [|split]]].
  - pose proof (C100_apply St R V e z m cd xd patch c1 (Some src) (mkSink old 0) HR Hsh Hx Hv) as A. specialize (D1 src (mkSink old 0)).
    destruct (apply_patch m cd c1 (Some src) (mkSink old 0)) as [s' r]. destruct A as [_ [[_ A]|[_ A]]]; [exact A|]. exfalso. cbn [snd] in D1. specialize (A c2). rewrite <- E in A.
    destruct (any_sink m cd p src out ops Hsh HR2 (good_ok _ Hg) Hrun old 0) as (p1 & E1). rewrite E1 in A. injection A as _ A. now apply D1.
  - destruct (C78_interrupted_apply_is_a_prefix m cd p src out c1 c2 old Hcut Hm E Hne) as (o1 & x & pos & E1 & E2). exists o1, x, pos. split; [|exact E2]. rewrite <- E1.
    pose proof (C100_apply St R V e z m cd xd patch c1 (Some src) (mkSink old 0) HR Hsh Hx Hv) as A. destruct (apply_patch m cd c1 (Some src) (mkSink old 0)) as [s' r]. exact (proj1 A).
  - unfold g_merger_new. apply rep_bind, HX.
  - intros g H. unfold g_merger_merge. assert (A : debug_assert_ m (contiguousb 0 (mg_patch g)) = Ok tt).
    { destruct H as [-> |H]; [reflexivity|]. rewrite H. destruct m; reflexivity. }
    rewrite A. cbn [bind]. apply rep_bind, HX.
  - intros f sc seg. unfold g_transcode. destruct HX as [-> |[Hz ->]]; (split; [reflexivity|]); [left|right]; auto.
Qed.
(** C100. The finding. The zstd decoder's constructor, which the code unwraps, begins by reading the four bytes of the frame's magic number (whatever it does afterwards, [more], and whatever the
    decoders do, [dec] and [br]): if the reader fails after the header of such a section and before these four bytes, apply_patch, the merger and the transcoder panic. *)
Theorem C100_zstd_refuted : forall St (R : reader St) V e m D (more : list Z -> list Z * St -> res (D * (list Z * St))) dec br patch bytes h l, breaks R V e -> V patch bytes ->
  read_section_header m bytes = Ok (h, l) -> h_comp h = 2 -> zlen l < 4 ->
  let xd := fun algo s => if algo =? 2 then unwrapped (fun s => do (magic, s) <- g_read_exact (buffered R) 4 s; more magic s) dec s else br s in
  (forall dict sink, g_apply_patch R m xd patch dict sink = (sink, Panic)) /\
  g_merger_new R m xd patch = Panic /\
  (forall g, g_merger_merge R m xd g patch = Panic) /\
  (forall cd f sc seg, g_transcode R m xd cd patch f sc seg = ([], Panic)).
Proof.
  intros St R V e m D more dec br patch bytes h l HR Hv Hh Hc Hl xd. pose proof (buffered_breaks R V e HR) as HB.
  assert (Hn : g_next_section (buffered R) m xd ([], patch) = Panic).
  { unfold g_next_section. assert (Hw : exists l', bytes = fst (@nil Z, patch) ++ l' /\ V (snd (@nil Z, patch)) l') by (exists bytes; auto).
    pose proof (f_header (buffered R) _ e false HB m ([], patch) bytes Hw) as H. rewrite Hh in H. destruct H as (b1 & -> & K & _). cbn [bind]. rewrite Hc. change (2 =? 1) with false. change (2 =? 2) with true. cbv iota.
    unfold xd. change (2 =? 2) with true. cbv iota. unfold unwrapped. pose proof (fexact_loop (buffered R) _ e HB (S (rd_most (buffered R) b1)) 4 b1 l K ltac:(lia) ltac:(lia)) as X.
    destruct (Z.leb_spec 4 (zlen l)); [lia|]. unfold g_read_exact. rewrite X. reflexivity. }
  assert (HX : g_extract R m xd patch = Panic) by (unfold g_extract; cbn [g_extract_loop]; rewrite Hn; reflexivity).
  split; [|split; [|split]].
  - intros dict sink. unfold g_apply_patch. cbn [g_patch_loop]. rewrite Hn. reflexivity.
  - unfold g_merger_new. rewrite HX. reflexivity.
  - intro g. unfold g_merger_merge. destruct m, (contiguousb 0 (mg_patch g)); cbn [debug_assert_ bind]; rewrite ?HX; reflexivity.
  - intros cd f sc seg. unfold g_transcode. rewrite HX. reflexivity.
Qed.

(** ** Any reader that does not fail (as C94, for the merger and the transcoder) *)
Lemma g_extract_loop_eq {St} (R : reader St) V m cd xd : delivers R V -> codecs_shrink cd -> ext_reads V cd xd ->
  forall k k' b l pos st, (exists l', l = fst b ++ l' /\ V (snd b) l') -> (length l < k)%nat -> (length l < k')%nat -> g_extract_loop (buffered R) m xd k' b pos st = extract_loop k m cd l pos st.
Proof.
  intros HR Hsh Hx. induction k as [|k IH]; intros k' b l pos st Hv Hk Hk'; [lia|]. destruct k' as [|k']; [lia|]. cbn [extract_loop g_extract_loop].
  pose proof (g_next R V m cd xd HR Hx b l Hv) as H. cbv beta in H. destruct (next_section m cd l) as [[[ops h] r]|y| |] eqn:E; try (rewrite H; reflexivity).
  destruct H as (b1 & -> & K). cbn [bind]. apply (next_section_shrink m cd Hsh) in E. destruct (extract_ops ops pos st) as [[l1 p1] st1]. destruct (h_more h); [|reflexivity].
  rewrite (IH k' b1 r p1 st1 K) by lia. reflexivity.
Qed.
(** C100. With a reader that does not fail, it makes no difference to the merger and the transcoder how it cuts the patch. *)
Theorem C100_any_reader : forall St (R : reader St) V m cd xd patch bytes, delivers R V -> codecs_shrink cd -> ext_reads V cd xd -> V patch bytes ->
  g_merger_new R m xd patch = merger_new m cd bytes /\
  (forall g, g_merger_merge R m xd g patch = merger_merge m cd g bytes) /\
  (forall f sc seg, g_transcode R m xd cd patch f sc seg = transcode m cd bytes f sc seg).
Proof.
  intros St R V m cd xd patch bytes HR Hsh Hx Hv. assert (Hw : exists l', bytes = fst (@nil Z, patch) ++ l' /\ V (snd (@nil Z, patch)) l') by (exists bytes; auto).
  assert (E : g_extract R m xd patch = extract_patch_instructions m cd bytes).
  { apply (g_extract_loop_eq R V m cd xd HR Hsh Hx); [exact Hw|lia|]. exact (most_len (buffered R) _ (buffered_delivers R V HR) _ _ Hw). }
  unfold g_merger_new, merger_new, g_merger_merge, merger_merge, g_transcode, transcode. rewrite E. repeat split; reflexivity.
Qed.

(** ** Instances *)
(** A connection that is interrupted before every byte, gives one byte at a time, and breaks after the last one. *)
Definition broken_pipe : reader (bool * list Z) := mkReader
  (fun n s => match s with (false, l) => Again (true, l) | (true, []) => Fails InvalidData | (true, x :: l) => Got [x] (false, l) end)
  (fun s => 2 * length (snd s) + (if fst s then 0 else 1))%nat.
Lemma broken_pipe_breaks : breaks broken_pipe (fun s l => snd s = l) InvalidData.
Proof.
  intros [b l] l' <-. cbn [snd]. split; [cbn [broken_pipe rd_most fst snd]; lia|]. intros n Hn. cbn [broken_pipe rd_read rd_most]. destruct b; [destruct l as [|x l]|].
  - auto.
  - exists l. repeat split; try (rewrite zlen_cons; change (zlen (@nil Z)) with 0; lia); try discriminate. cbn [length fst snd]. lia.
  - split; [reflexivity|cbn [fst snd]; lia].
Qed.
Lemma no_ext_breaks St V e z : @ext_breaks St V e z no_codecs (fun _ _ => Err EOF).
Proof. intros have s l a [-> | ->] _; right; split; reflexivity. Qed.
Lemma no_codecs_shrink : codecs_shrink no_codecs.
Proof. split; intros bs dec rest H; discriminate H. Qed.
(** A patch of an encode call through that connection, which breaks inside the data of the Add. *)
Example C100_cut_example : exists c1 c2, made no_codecs [0; 1; 4; 132; 1; 2; 3; 4] [] [1; 2; 3; 4] /\ [0; 1; 4; 132; 1; 2; 3; 4] = c1 ++ c2 /\ c2 <> [] /\ codecs_cut no_codecs /\
  g_apply_patch broken_pipe Release (fun _ _ => Err EOF) (false, c1) (Some []) (mkSink [9; 9] 0) = (mkSink [9; 9] 0, Err InvalidData) /\
  g_merger_new broken_pipe Release (fun _ _ => Err EOF) (false, c1) = Err InvalidData.
Proof.
  exists [0; 1; 4; 132; 1; 2], [3; 4]. split; [|split; [reflexivity|split; [discriminate|split; [split; apply stream_is_cut; apply no_codecs_stream|split; vm_compute; reflexivity]]]].
  pose proof (proj1 C78_example) as H. replace (fst (encode Release no_codecs c78_cfg (Some []) [1; 2; 3; 4])) with [0; 1; 4; 132; 1; 2; 3; 4] in H by (vm_compute; reflexivity). exact H.
Qed.
(** The failure comes too late to matter: the whole patch has been read, and nothing is asked for after it. *)
Example C100_late_example : 
  g_apply_patch broken_pipe Debug (fun _ _ => Err EOF) (false, [0; 1; 4; 132; 1; 2; 3; 4]) (Some []) (mkSink [9; 9] 0) = (mkSink [1; 2; 3; 4] 4, Ok tt) /\
  fst (g_transcode broken_pipe Debug (fun _ _ => Err EOF) no_codecs (false, [0; 1; 4; 132; 1; 2; 3; 4]) Segregated None 100) = fst (transcode Debug no_codecs [0; 1; 4; 132; 1; 2; 3; 4] Segregated None 100) /\
  snd (transcode Debug no_codecs [0; 1; 4; 132; 1; 2; 3; 4] Segregated None 100) = Ok tt.
Proof. vm_compute. auto. Qed.
(** The finding: the header of a section with zstd, then two bytes of the magic number, then the connection breaks. *)
Example C100_zstd_example : exists h, read_section_header Release [16; 1; 4; 40; 181] = Ok (h, [40; 181]) /\ h_comp h = 2 /\
  g_apply_patch broken_pipe Release (fun algo s => if algo =? 2 then unwrapped (fun s => do (mg, s) <- g_read_exact (buffered broken_pipe) 4 s; Ok (mg, s)) (fun _ _ => Err EOF) s else Err EOF)
    (false, [16; 1; 4; 40; 181]) None (mkSink [] 0) = (mkSink [] 0, Panic).
Proof. eexists. split; [vm_compute; reflexivity|]. split; vm_compute; reflexivity. Qed.
Print Assumptions C100_apply.
Print Assumptions C100_merge_and_transcode.
Print Assumptions C100_cut_patch.
Print Assumptions C100_zstd_refuted.
Print Assumptions C100_any_reader.
