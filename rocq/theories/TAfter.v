(** Property C97: calling a section iterator again after it returned an error. *)
From Verif Require Import Base Spec MCommon MWriter MReader MDecoder SpecApi MAfter PBase PCommon PStream PSection PRobust.
Ltac Zify.zify_post_hook ::= idtac.
Arguments Z.add : simpl never.
Arguments Z.sub : simpl never.
Arguments Z.mul : simpl never.
Arguments Z.pow : simpl never.

(** [a] is what is left of [b] after some bytes from the front were taken. *)
Definition end_of (a b : list Z) : Prop := exists c, b = c ++ a.
Lemma end_refl a : end_of a a. Proof. exists []. reflexivity. Qed.
Lemma end_trans a b c : end_of a b -> end_of b c -> end_of a c.
Proof. intros (x & ->) (y & ->). exists (y ++ x). rewrite app_assoc. reflexivity. Qed.
Lemma end_nil a : end_of a [] -> a = [].
Proof. intros (c & E). symmetry in E. apply app_eq_nil in E. tauto. Qed.
Lemma end_len a b : end_of a b -> (length a <= length b)%nat.
Proof. intros (c & ->). rewrite app_length. lia. Qed.
Lemma end_cons a x b : end_of a b -> end_of a (x :: b).
Proof. intros (c & ->). exists (x :: c). reflexivity. Qed.

(** ** A reading function with positions does what the one without them does *)
Definition agr {A} (x : E A) (p : list Z -> res (A * list Z)) : Prop := forall bs,
  match p bs with Ok (a, r) => x bs = (r, Ok a) | Err e => snd (x bs) = Err e | Panic => snd (x bs) = Panic | Diverge => snd (x bs) = Diverge end.
Definition suf {A} (x : E A) : Prop := forall bs, end_of (fst (x bs)) bs.
Lemma agr_ext {A} (x : E A) p q : (forall bs, p bs = q bs) -> agr x p -> agr x q.
Proof. intros H Hx bs. rewrite <- H. apply Hx. Qed.
Lemma agr_ret {A} (a : A) : agr (eret a) (fun bs => Ok (a, bs)). Proof. intro bs. reflexivity. Qed.
Lemma agr_lift {A B} (r : res A) (k : A -> E B) q : (forall a, agr (k a) (q a)) -> agr (ebind (elift r) k) (fun bs => do a <- r; q a bs).
Proof. intros H bs. unfold ebind, elift. destruct r as [a|e| |]; cbn [bind]; [apply H|reflexivity..]. Qed.
Lemma agr_fail {A} (r : res A) : (forall a, r <> Ok a) -> agr (elift r) (fun bs => do a <- r; Ok (a, bs)).
Proof. intros H bs. destruct r as [a|e| |]; [|reflexivity..]. destruct (H a eq_refl). Qed.
Lemma agr_bind {A B} (x : E A) p (k : A -> E B) q : agr x p -> (forall a, agr (k a) (q a)) -> agr (ebind x k) (fun bs => do (a, r) <- p bs; q a r).
Proof.
  intros Hx Hk bs. specialize (Hx bs). unfold ebind. destruct (p bs) as [[a r]|e| |]; cbn [bind].
  - rewrite Hx. apply Hk.
  - destruct (x bs) as [s o]. cbn [snd] in Hx. rewrite Hx. reflexivity.
  - destruct (x bs) as [s o]. cbn [snd] in Hx. rewrite Hx. reflexivity.
  - destruct (x bs) as [s o]. cbn [snd] in Hx. rewrite Hx. reflexivity.
Qed.
Lemma agr_bindx {A B} (x : E A) p (k : A -> E B) q g : agr x p -> (forall a, agr (k a) (q a)) -> (forall bs, (do (a, r) <- p bs; q a r) = g bs) -> agr (ebind x k) g.
Proof. intros Hx Hk H. exact (agr_ext _ _ _ H (agr_bind x p k q Hx Hk)). Qed.
Ltac same := let bs := fresh in intro bs; match goal with |- (do (_, _) <- ?x; _) = _ => destruct x as [[[[? ?] ?] ?]|?| |]; reflexivity end.
Lemma agr_call {A} left n (p : list Z -> res (A * list Z)) : agr (e_call left n p) p.
Proof. intro bs. unfold e_call. destruct (p bs) as [[a r]|e| |]; reflexivity. Qed.
Lemma suf_ret {A} (a : A) : suf (eret a). Proof. intro bs. apply end_refl. Qed.
Lemma suf_lift {A} (r : res A) : suf (elift r). Proof. intro bs. apply end_refl. Qed.
Lemma suf_bind {A B} (x : E A) (k : A -> E B) : suf x -> (forall a, suf (k a)) -> suf (ebind x k).
Proof.
  intros Hx Hk bs. specialize (Hx bs). unfold ebind. destruct (x bs) as [s [a|e| |]]; cbn [fst] in *; try exact Hx.
  eapply end_trans; [apply Hk|exact Hx].
Qed.

(** What the standard library guarantees of a reader over bytes in memory: no bytes appear. *)
Definition takes_from_front (left : Z -> list Z -> list Z) : Prop := forall n bs, end_of (left n bs) bs.

Lemma read_exact_end n bs b r : read_exact n bs = Ok (b, r) -> end_of r bs.
Proof. unfold read_exact. destruct (_ <=? _); [|discriminate]. injection 1 as <- <-. exists (take n bs). unfold take, drop. rewrite firstn_skipn. reflexivity. Qed.
Lemma suf_exact left n : takes_from_front left -> suf (e_exact left n).
Proof. intros H bs. unfold e_exact, e_call. destruct (read_exact n bs) as [[b r]|e| |] eqn:E; cbn [fst]; [eapply read_exact_end, E|apply H|apply end_refl..]. Qed.
Lemma suf_u8 left : takes_from_front left -> suf (e_u8 left).
Proof. intros H bs. unfold e_u8, e_call, read_u8. destruct bs as [|b r]; cbn [fst]; [apply H|exists [b]; reflexivity]. Qed.
Lemma suf_u16 left : takes_from_front left -> suf (e_u16 left).
Proof. intros H bs. unfold e_u16, e_call, read_u16. destruct bs as [|b [|c r]]; cbn [fst]; [apply H|apply H|exists [b; c]; reflexivity]. Qed.
Lemma suf_varint_loop m : forall bs r s, end_of (fst (e_varint_loop m r s bs)) bs.
Proof.
  induction bs as [|b bs IH]; intros r s; cbn [e_varint_loop]; [apply end_refl|].
  destruct (shl_u64 m (Z.land b 127) s) as [v|e| |]; cbn [fst]; try (exists [b]; reflexivity).
  destruct (Z.land b 128 =? 0); cbn [fst]; [exists [b]; reflexivity|]. apply end_cons, IH.
Qed.
Lemma suf_u_varint m : suf (e_u_varint m). Proof. intro bs. apply suf_varint_loop. Qed.
Lemma suf_i_varint m : suf (e_i_varint m). Proof. apply suf_bind; [apply suf_u_varint|intro; apply suf_ret]. Qed.
Lemma agr_varint_loop m : forall bs r s, match read_u_varint_loop m r s bs with
  | Ok (a, r') => e_varint_loop m r s bs = (r', Ok a) | Err e => snd (e_varint_loop m r s bs) = Err e | Panic => snd (e_varint_loop m r s bs) = Panic | Diverge => snd (e_varint_loop m r s bs) = Diverge end.
Proof.
  induction bs as [|b bs IH]; intros r s; cbn [e_varint_loop read_u_varint_loop]; [reflexivity|].
  destruct (shl_u64 m (Z.land b 127) s) as [v|e| |]; cbn [bind]; try reflexivity.
  destruct (Z.land b 128 =? 0); [reflexivity|]. apply IH.
Qed.
Lemma agr_u_varint m : agr (e_u_varint m) (read_u_varint m). Proof. intro bs. apply agr_varint_loop. Qed.
Lemma agr_i_varint m : agr (e_i_varint m) (read_i_varint m).
Proof. unfold e_i_varint, read_i_varint. apply (agr_bind _ _ _ (fun z r => Ok (zigzag_decode z, r)) (agr_u_varint m)). intro. apply agr_ret. Qed.

Ltac sufs H := repeat first
  [ apply suf_bind; [|intros] | apply suf_ret | apply suf_lift | apply (suf_u8 _ H) | apply (suf_u16 _ H) | apply (suf_exact _ _ H) | apply suf_u_varint | apply suf_i_varint
  | match goal with |- suf (let '(_, _) := ?x in _) => destruct x end
  | match goal with |- suf (match ?x with _ => _ end) => destruct x end ].

Lemma agr_header left m : agr (e_section_header left m) (read_section_header m).
Proof.
  unfold e_section_header, read_section_header. apply agr_bind; [apply agr_call|]. intro hb. cbv zeta.
  apply (agr_bind _ _ _ _ (agr_u_varint m)). intro n.
  apply agr_bind.
  - destruct (is_segregated _); [|apply agr_ret]. apply (agr_bind _ _ _ (fun a r => Ok (to_u32 a, r)) (agr_u_varint m)). intro. apply agr_ret.
  - intro nadd. apply (agr_bind _ _ _ _ (agr_u_varint m)). intro s. apply agr_lift. intro. apply agr_ret.
Qed.
Lemma suf_header left m : takes_from_front left -> suf (e_section_header left m).
Proof. intro H. unfold e_section_header. sufs H. Qed.
Lemma agr_op left m d o i : agr (e_op left m d o i) (read_op m d o i).
Proof.
  unfold e_op, read_op, read_op_byte.
  apply (agr_ext _ (fun bs => do (byte, bs) <- read_u8 bs;
    do ot <- (if Z.land byte OP_MASK =? COPY_D then Ok (TCopy Dict) else if Z.land byte OP_MASK =? COPY_O then Ok (TCopy Output) else if Z.land byte OP_MASK =? ADD then Ok TAdd else if Z.land byte OP_MASK =? RUN then Ok TRun else Err InvalidData);
    do _ <- (match ot, size_routine (Z.land byte SIZE_MASK) with TRun, Done _ => Ok tt | TRun, _ => Err InvalidData | _, _ => Ok tt end);
    do (n, bs) <- match size_routine (Z.land byte SIZE_MASK) with Done n => Ok (n, bs) | U8And62 => do (b, bs) <- read_u8 bs; Ok (b + 62, bs) | U16 => read_u16 bs end;
    match ot with
    | TCopy s => do (i, bs) <- read_i_varint m bs;
        match s with
        | Dict => do a <- diff_addresses_to_u64 m d i; Ok (Copy Dict a n, a, o, bs)
        | Output => do a <- diff_addresses_to_u64 m o i; Ok (Copy Output a n, d, a, bs)
        end
    | TAdd => if i then do (b, bs) <- read_exact n bs; Ok (Add b, d, o, bs) else Ok (Add (rep 0 n), d, o, bs)
    | TRun => do (b, bs) <- read_u8 bs; Ok (Run b n, d, o, bs)
    end)).
  { intro bs. destruct (read_u8 bs) as [[b r]|e| |]; cbn [bind]; try reflexivity.
    destruct (_ =? COPY_D); [reflexivity|]. destruct (_ =? COPY_O); [reflexivity|]. destruct (_ =? ADD); [reflexivity|]. destruct (_ =? RUN); reflexivity. }
  apply agr_bind; [apply agr_call|]. intro byte. cbv zeta. apply agr_lift. intro ot. apply agr_lift. intros _.
  apply (agr_bind _ (fun bs => match size_routine (Z.land byte SIZE_MASK) with Done n => Ok (n, bs) | U8And62 => do (b, bs) <- read_u8 bs; Ok (b + 62, bs) | U16 => read_u16 bs end)).
  - destruct (size_routine _); [apply agr_ret| |apply agr_call]. apply (agr_bind _ read_u8 _ (fun b r => Ok (b + 62, r))); [apply agr_call|]. intro. apply agr_ret.
  - intro n. destruct ot as [s| |].
    + apply (agr_bind _ _ _ _ (agr_i_varint m)). intro j. destruct s; apply agr_lift; intro; apply agr_ret.
    + destruct i; [|apply agr_ret]. apply (agr_bind _ (read_exact n) _ (fun b r => Ok (Add b, d, o, r))); [apply agr_call|]. intro. apply agr_ret.
    + apply (agr_bind _ read_u8 _ (fun b r => Ok (Run b n, d, o, r))); [apply agr_call|]. intro. apply agr_ret.
Qed.
Lemma suf_op left m d o i : takes_from_front left -> suf (e_op left m d o i).
Proof. intro H. unfold e_op. sufs H. Qed.
Lemma agr_ops_loop left m f : forall k n d o cs na, agr (e_ops_loop k left m f n d o cs na) (read_ops_loop k m f n d o cs na).
Proof.
  induction k as [|k IH]; intros n d o cs na; cbn [e_ops_loop read_ops_loop].
  - destruct (n <=? 0); [apply agr_ret|]. intro bs. reflexivity.
  - destruct (n <=? 0); [apply agr_ret|].
    apply (agr_bindx _ _ _ (fun '(o0, d1, o1) bs => do cs <- arith m to_u32 (cs + oal o0); do nadd <- (if is_segregated f && is_add o0 then arith m to_u32 (na + oal o0) else Ok na);
      do (ops, cs, nadd, bs) <- read_ops_loop k m f (n - 1) d1 o1 cs nadd bs; Ok (o0 :: ops, cs, nadd, bs)) _ (agr_op left m d o (negb (is_segregated f)))); [|same].
    intros [[o0 d1] o1]. apply agr_lift. intro c1. apply agr_lift. intro n1.
    apply (agr_bindx _ _ _ (fun '(ops, cs, nadd) bs => Ok (o0 :: ops, cs, nadd, bs)) _ (IH (n - 1) d1 o1 c1 n1)); [|same]. intros [[ops c2] n2]. apply agr_ret.
Qed.
Lemma suf_ops_loop left m f : takes_from_front left -> forall k n d o cs na, suf (e_ops_loop k left m f n d o cs na).
Proof.
  intro H. induction k as [|k IH]; intros n d o cs na; cbn [e_ops_loop]; (destruct (n <=? 0); [apply suf_ret|]); [apply suf_lift|].
  apply suf_bind; [apply suf_op, H|]. intros [[o0 d1] o1]. apply suf_bind; [apply suf_lift|]. intro. apply suf_bind; [apply suf_lift|]. intro.
  apply suf_bind; [apply IH|]. intros [[? ?] ?]. apply suf_ret.
Qed.
Lemma agr_fill left : forall ops, agr (e_fill left ops) (fill_adds ops).
Proof.
  induction ops as [|o ops IH]; cbn [e_fill fill_adds]; [apply agr_ret|]. destruct o as [z|b l|s a l].
  - apply (agr_bind _ (read_exact (zlen z)) _ (fun b bs => do (ops, bs) <- fill_adds ops bs; Ok (Add b :: ops, bs))); [apply agr_call|]. intro b.
    apply (agr_bind _ _ _ (fun ops bs => Ok (Add b :: ops, bs)) IH). intro. apply agr_ret.
  - apply (agr_bind _ _ _ (fun ops bs => Ok (Run b l :: ops, bs)) IH). intro. apply agr_ret.
  - apply (agr_bind _ _ _ (fun ops bs => Ok (Copy s a l :: ops, bs)) IH). intro. apply agr_ret.
Qed.
Lemma suf_fill left : takes_from_front left -> forall ops, suf (e_fill left ops).
Proof.
  intro H. induction ops as [|o ops IH]; cbn [e_fill]; [apply suf_ret|]. destruct o as [z|b l|s a l]; [apply suf_bind; [apply suf_exact, H|intro]|..]; (apply suf_bind; [apply IH|intro; apply suf_ret]).
Qed.
Lemma agr_read_ops left m h : agr (e_read_ops left m h) (read_ops_no_comp m h).
Proof.
  intro bs. unfold e_read_ops, read_ops_no_comp. generalize (S (length bs)). intro k. revert bs.
  apply (agr_bindx _ _ _ (fun '(ops, cs, nadd) bs => if negb (cs =? h_osize h) then Err InvalidData else
     match h_format h with Segregated => do (ops, bs) <- fill_adds ops bs; Ok (ops, set_nadd h nadd, bs) | Interleaved => Ok (ops, h, bs) end)
    _ (agr_ops_loop left m (h_format h) k (h_nops h) 0 0 0 (h_nadd h))); [|same].
  intros [[ops cs] na]. destruct (negb _); [intro; reflexivity|]. destruct (h_format h); [apply agr_ret|].
  apply (agr_bind _ _ _ (fun ops bs => Ok (ops, set_nadd h na, bs)) (agr_fill left ops)). intro. apply agr_ret.
Qed.
Lemma suf_read_ops left m h : takes_from_front left -> suf (e_read_ops left m h).
Proof.
  intros H bs. unfold e_read_ops. revert bs. intro bs. generalize (S (length bs)). intro k. revert bs.
  apply suf_bind; [apply suf_ops_loop, H|]. intros [[ops cs] na]. destruct (negb _); [apply suf_lift|]. destruct (h_format h); [apply suf_ret|].
  apply suf_bind; [apply suf_fill, H|intro; apply suf_ret].
Qed.
Lemma agr_section left m : agr (e_section left m) (read_section m).
Proof. unfold e_section, read_section. apply (agr_bind _ _ _ _ (agr_header left m)). intro h. apply agr_read_ops. Qed.
Lemma suf_section left m : takes_from_front left -> suf (e_section left m).
Proof. intro H. unfold e_section. apply suf_bind; [apply suf_header, H|intro; apply suf_read_ops, H]. Qed.

(** The decoder's sections. *)
Lemma agr_inner left m : forall k s pos bs, match apply_loop (read_section m) k None bs s pos with
  | (s', Ok rest) => e_inner_loop k left m s pos bs = (rest, Ok s') | (_, Err e) => snd (e_inner_loop k left m s pos bs) = Err e
  | (_, Panic) => snd (e_inner_loop k left m s pos bs) = Panic | (_, Diverge) => snd (e_inner_loop k left m s pos bs) = Diverge end.
Proof.
  induction k as [|k IH]; intros s pos bs; cbn [apply_loop e_inner_loop]; [reflexivity|].
  pose proof (agr_section left m bs) as HS. unfold ebind. destruct (read_section m bs) as [[[ops h] r]|e| |].
  - rewrite HS. destruct (apply_ops None ops s pos) as [[s' pos'] [[]|e| |]]; try reflexivity. destruct (h_more h); [apply IH|reflexivity].
  - destruct (e_section left m bs) as [z o]. cbn [snd] in HS. rewrite HS. reflexivity.
  - destruct (e_section left m bs) as [z o]. cbn [snd] in HS. rewrite HS. reflexivity.
  - destruct (e_section left m bs) as [z o]. cbn [snd] in HS. rewrite HS. reflexivity.
Qed.
Lemma suf_inner left m : takes_from_front left -> forall k s pos, suf (e_inner_loop k left m s pos).
Proof.
  intro H. induction k as [|k IH]; intros s pos bs; cbn [e_inner_loop]; [apply end_refl|]. revert bs.
  apply (suf_bind _ _ (suf_section left m H)). intros [ops h]. destruct (apply_ops None ops s pos) as [[s' pos'] [[]|e| |]]; try apply suf_lift. destruct (h_more h); [apply IH|apply suf_ret].
Qed.
Lemma agr_next_section left xleft m cd : agr (e_next_section left xleft m cd) (next_section m cd).
Proof.
  unfold e_next_section, next_section. apply (agr_bind _ _ _ _ (agr_header left m)). intros h bs.
  destruct (h_comp h =? 1); [|destruct (h_comp h =? 2); [|destruct (h_comp h =? 3)]].
  - unfold apply_no_sec_comp. pose proof (agr_inner left m (S (length bs)) (mkSink [] 0) 0 bs) as HI.
    destruct (apply_loop (read_section m) (S (length bs)) None bs (mkSink [] 0) 0) as [s [rest|e| |]]; unfold ebind.
    + rewrite HI. unfold elift. destruct (read_ops_no_comp m h (sbuf s)) as [[[ops h'] ?]|e| |]; reflexivity.
    + destruct (e_inner_loop _ _ _ _ _ bs) as [z o]. cbn [snd] in HI. rewrite HI. reflexivity.
    + destruct (e_inner_loop _ _ _ _ _ bs) as [z o]. cbn [snd] in HI. rewrite HI. reflexivity.
    + destruct (e_inner_loop _ _ _ _ _ bs) as [z o]. cbn [snd] in HI. rewrite HI. reflexivity.
  - destruct (do (dec, rest) <- zstd_dec cd bs; do (ops, h, _) <- read_ops_no_comp m h dec; Ok (ops, h, rest)) as [[[? ?] ?]|e| |]; reflexivity.
  - destruct (do (dec, rest) <- brotli_dec cd bs; do (ops, h, _) <- read_ops_no_comp m h dec; Ok (ops, h, rest)) as [[[? ?] ?]|e| |]; reflexivity.
  - apply agr_read_ops.
Qed.
(** The decompressors, too, only take bytes from the front. *)
Definition codecs_front (cd : codecs) : Prop :=
  (forall bs dec rest, zstd_dec cd bs = Ok (dec, rest) -> end_of rest bs) /\ (forall bs dec rest, brotli_dec cd bs = Ok (dec, rest) -> end_of rest bs).
Definition body left xleft m cd (h : header) : E (list op * header) := fun bs =>
  if h_comp h =? 1 then
    ebind (e_inner_loop (S (length bs)) left m (mkSink [] 0) 0) (fun s =>
    elift (do (ops, h, _) <- read_ops_no_comp m h (sbuf s); Ok (ops, h))) bs
  else if h_comp h =? 2 then
    match (do (dec, rest) <- zstd_dec cd bs; do (ops, h, _) <- read_ops_no_comp m h dec; Ok (ops, h, rest)) with
    | Ok (ops, h, rest) => (rest, Ok (ops, h)) | Err e => (xleft bs, Err e) | Panic => (xleft bs, Panic) | Diverge => (xleft bs, Diverge)
    end
  else if h_comp h =? 3 then
    match (do (dec, rest) <- brotli_dec cd bs; do (ops, h, _) <- read_ops_no_comp m h dec; Ok (ops, h, rest)) with
    | Ok (ops, h, rest) => (rest, Ok (ops, h)) | Err e => (xleft bs, Err e) | Panic => (xleft bs, Panic) | Diverge => (xleft bs, Diverge)
    end
  else e_read_ops left m h bs.
Lemma suf_body left xleft m cd h : takes_from_front left -> (forall bs, end_of (xleft bs) bs) -> codecs_front cd -> suf (body left xleft m cd h).
Proof.
  intros H HX [HZ HB] bs. unfold body. destruct (h_comp h =? 1); [|destruct (h_comp h =? 2); [|destruct (h_comp h =? 3)]].
  - generalize (S (length bs)). intro k. revert bs. apply suf_bind; [apply suf_inner, H|]. intro. apply suf_lift.
  - destruct (zstd_dec cd bs) as [[dec rest]|e| |] eqn:E; cbn [bind]; try apply HX.
    destruct (read_ops_no_comp m h dec) as [[[? ?] ?]|e| |]; cbn [bind fst]; try apply HX. eapply HZ, E.
  - destruct (brotli_dec cd bs) as [[dec rest]|e| |] eqn:E; cbn [bind]; try apply HX.
    destruct (read_ops_no_comp m h dec) as [[[? ?] ?]|e| |]; cbn [bind fst]; try apply HX. eapply HB, E.
  - apply suf_read_ops, H.
Qed.

(** Every call takes a byte, if there is one. *)
Definition advances {A} (x : E A) : Prop := (forall b bs, end_of (fst (x (b :: bs))) bs) /\ x [] = ([], Err EOF).
Lemma advances_header {A} left m (k : header -> E A) : takes_from_front left -> (forall h, suf (k h)) -> advances (ebind (e_section_header left m) k).
Proof.
  intros H Hk. split.
  - intros b bs.
    assert (K : forall (y : E header), (end_of (fst (y (b :: bs))) bs) -> end_of (fst (ebind y k (b :: bs))) bs).
    { intros y Hy. unfold ebind. destruct (y (b :: bs)) as [s [h|e| |]]; cbn [fst] in *; try exact Hy. eapply end_trans; [apply Hk|exact Hy]. }
    apply K. unfold e_section_header. unfold ebind at 1. unfold e_u8 at 1, e_call, read_u8.
    match goal with |- end_of (fst (?z bs)) bs => revert bs K; assert (S : suf z) by (sufs H); intros bs _; apply S end.
  - unfold ebind at 1, e_section_header. unfold ebind at 1. unfold e_u8, e_call, read_u8. rewrite (end_nil _ (H 1 [])). reflexivity.
Qed.
Lemma advances_section left m : takes_from_front left -> advances (e_section left m).
Proof. intro H. apply advances_header; [exact H|]. intro. apply suf_read_ops, H. Qed.
Lemma advances_next left xleft m cd : takes_from_front left -> (forall bs, end_of (xleft bs) bs) -> codecs_front cd -> advances (e_next_section left xleft m cd).
Proof. intros H HX HC. apply (advances_header left m (body left xleft m cd) H). intro h. apply suf_body; assumption. Qed.

(** ** C97 *)
(** [calls sec n bytes]: what the first [n] calls of an iterator over [bytes] return. *)
Definition calls (sec : E (list op * header)) (n : nat) (bytes : list Z) : list (option (res (list op * header))) := fst (ei_polls sec n (ei_new bytes)).
(** What the caller of an iterator sees when it goes on calling, whatever was returned:
    - None is returned exactly after a section marked as the last one was returned; errors never end the iteration;
    - every section returned is what the reader reads at some position of the input: after an error, the position where the error occurred;
    - from call [length bytes] on, there is nothing but end-of-file errors (or None). *)
Definition goes_on (sec : E (list op * header)) (read : next_t) : Prop := forall bytes n i x, nth_error (calls sec n bytes) i = Some x ->
  (x = None <-> exists j ops h, (j < i)%nat /\ nth_error (calls sec n bytes) j = Some (Some (Ok (ops, h))) /\ h_more h = false) /\
  (forall ops h, x = Some (Ok (ops, h)) -> exists at_ rest, end_of at_ bytes /\ read at_ = Ok (ops, h, rest)) /\
  ((length bytes <= i)%nat -> x = None \/ x = Some (Err EOF)).

Lemma polls_done sec bs : forall n, fst (ei_polls sec n (mkEI bs true)) = repeat None n.
Proof. induction n as [|n IH]; [reflexivity|]. cbn [ei_polls]. unfold ei_next at 1. cbn [ei_done]. destruct (ei_polls sec n (mkEI bs true)) as [l it]. cbn [fst repeat] in *. rewrite IH. reflexivity. Qed.
Lemma goes_on_ok sec read : agr sec read -> advances sec -> goes_on sec read.
Proof.
  intros HA [HV HN] bytes n. unfold calls, ei_new. revert bytes. induction n as [|n IH]; intros bytes i x Hi; [destruct i; discriminate|].
  cbn [ei_polls] in Hi |- *. unfold ei_next in Hi |- *. cbn [ei_done ei_source] in Hi |- *.
  specialize (HA bytes). destruct (sec bytes) as [bs r] eqn:ES.
  assert (HE : end_of bs bytes /\ (length bs <= length bytes - 1)%nat).
  { destruct bytes as [|b bytes]; [rewrite HN in ES; injection ES as <- <-; split; [apply end_refl|cbn; lia]|].
    specialize (HV b bytes). rewrite ES in HV. cbn [fst] in HV. split; [apply end_cons, HV|]. apply end_len in HV. cbn [length]. lia. }
  destruct HE as [HE HL].
  assert (GO : forall y, (forall ops h, y = Ok (ops, h) -> h_more h = true /\ exists rest, read bytes = Ok (ops, h, rest)) -> ((length bytes <= 0)%nat -> y = Err EOF) ->
    forall l it, (l, it) = ei_polls sec n (mkEI bs false) -> nth_error (Some y :: l) i = Some x ->
    (x = None <-> exists j ops h, (j < i)%nat /\ nth_error (Some y :: l) j = Some (Some (Ok (ops, h))) /\ h_more h = false) /\
    (forall ops h, x = Some (Ok (ops, h)) -> exists at_ rest, end_of at_ bytes /\ read at_ = Ok (ops, h, rest)) /\
    ((length bytes <= i)%nat -> x = None \/ x = Some (Err EOF))).
  { intros y Hy H0 l it El Hx. destruct i as [|i]; cbn [nth_error] in Hx.
    - injection Hx as <-. split; [|split].
      + split; [discriminate|]. intros (j & _ & _ & Hj & _). lia.
      + intros ops h [= ->]. destruct (Hy ops h eq_refl) as (_ & rest & Er). exists bytes, rest. split; [apply end_refl|exact Er].
      + intro H. right. rewrite (H0 H). reflexivity.
    - specialize (IH bs i x). rewrite <- El in IH. cbn [fst] in IH. destruct (IH Hx) as (I1 & I2 & I3). split; [|split].
      + split.
        * intro E. apply I1 in E as (j & ops & h & Hj & Ej & Em). exists (S j), ops, h. split; [lia|]. split; assumption.
        * intros (j & ops & h & Hj & Ej & Em). apply I1. destruct j as [|j]; cbn [nth_error] in Ej.
          -- injection Ej as ->. destruct (Hy ops h eq_refl) as [Hm _]. congruence.
          -- exists j, ops, h. split; [lia|]. split; assumption.
      + intros ops h E. destruct (I2 ops h E) as (a & rest & Ha & Er). exists a, rest. split; [eapply end_trans; eassumption|exact Er].
      + intro H. apply I3. lia. }
  assert (H0 : (length bytes <= 0)%nat -> r = Err EOF). { destruct bytes as [|b bytes]; [intros _; rewrite HN in ES; congruence|cbn; lia]. }
  destruct r as [[ops h]|e| |].
  - destruct (read bytes) as [[[ops' h'] rest]|e| |] eqn:ER; cbn [snd] in HA; try discriminate. injection HA as -> <- <-.
    destruct (h_more h) eqn:Em; cbn [negb] in *.
    + destruct (ei_polls sec n (mkEI rest false)) as [l it] eqn:EP. cbn [fst] in Hi |- *. apply (GO (Ok (ops, h))) with (it := it); [|exact H0|symmetry; first [exact EP|reflexivity]|exact Hi].
      intros o' h0 [= <- <-]. split; [exact Em|]. exists rest. reflexivity.
    + pose proof (polls_done sec rest n) as PD. destruct (ei_polls sec n (mkEI rest true)) as [l it]. cbn [fst] in *. subst l.
      destruct i as [|i]; cbn [nth_error] in Hi.
      * injection Hi as <-. split; [|split].
        -- split; [discriminate|]. intros (j & _ & _ & Hj & _). lia.
        -- intros o' h0 [= <- <-]. exists bytes, rest. split; [apply end_refl|]. exact ER.
        -- intro H. specialize (H0 H). discriminate.
      * assert (x = None). { apply nth_error_In, repeat_spec in Hi. exact Hi. } subst x. split; [|split].
        -- split; [intros _|reflexivity]. exists 0%nat, ops, h. split; [lia|]. split; [reflexivity|exact Em].
        -- discriminate.
        -- intros _. left. reflexivity.
  - destruct (ei_polls sec n (mkEI bs false)) as [l it] eqn:EP. cbn [fst] in Hi |- *. apply (GO (Err e)) with (it := it); [discriminate|exact H0|first [exact EP|symmetry; exact EP|reflexivity]|exact Hi].
  - destruct (ei_polls sec n (mkEI bs false)) as [l it] eqn:EP. cbn [fst] in Hi |- *. apply (GO Panic) with (it := it); [discriminate|exact H0|first [exact EP|symmetry; exact EP|reflexivity]|exact Hi].
  - destruct (ei_polls sec n (mkEI bs false)) as [l it] eqn:EP. cbn [fst] in Hi |- *. apply (GO Diverge) with (it := it); [discriminate|exact H0|first [exact EP|symmetry; exact EP|reflexivity]|exact Hi].
Qed.

Theorem C97_same_results : forall m cd left xleft bytes,
  match read_section m bytes with
  | Ok (ops, h, rest) => e_section left m bytes = (rest, Ok (ops, h)) | Err e => snd (e_section left m bytes) = Err e
  | Panic => snd (e_section left m bytes) = Panic | Diverge => snd (e_section left m bytes) = Diverge end /\
  match next_section m cd bytes with
  | Ok (ops, h, rest) => e_next_section left xleft m cd bytes = (rest, Ok (ops, h)) | Err e => snd (e_next_section left xleft m cd bytes) = Err e
  | Panic => snd (e_next_section left xleft m cd bytes) = Panic | Diverge => snd (e_next_section left xleft m cd bytes) = Diverge end.
Proof.
  intros m cd left xleft bytes. split.
  - pose proof (agr_section left m bytes) as H. destruct (read_section m bytes) as [[[? ?] ?]|?| |]; exact H.
  - pose proof (agr_next_section left xleft m cd bytes) as H. destruct (next_section m cd bytes) as [[[? ?] ?]|?| |]; exact H.
Qed.

Theorem C97_goes_on : forall m cd left xleft, takes_from_front left -> (forall bs, end_of (xleft bs) bs) -> codecs_front cd ->
  goes_on (e_section left m) (read_section m) /\ goes_on (e_next_section left xleft m cd) (next_section m cd).
Proof.
  intros m cd left xleft H HX HC. split; apply goes_on_ok.
  - apply agr_section.
  - apply advances_section, H.
  - apply agr_next_section.
  - apply advances_next; assumption.
Qed.

(** ** Cut-off patches, in a reader that is at its end after a read that asked for too much (files, and cursors of recent standard libraries) *)
Definition at_end (n : Z) (bs : list Z) : list Z := [].
Definition eofe {A} (x : E A) : Prop := forall bs, snd (x bs) = Err EOF -> fst (x bs) = [].
Lemma eofe_ret {A} (a : A) : eofe (eret a). Proof. intros bs H. discriminate. Qed.
Lemma eofe_lift {A} (r : res A) : r <> Err EOF -> eofe (elift r). Proof. intros H bs E. cbn in E. contradiction. Qed.
Lemma eofe_bind {A B} (x : E A) (k : A -> E B) : eofe x -> (forall a, eofe (k a)) -> eofe (ebind x k).
Proof. intros Hx Hk bs. specialize (Hx bs). unfold ebind. destruct (x bs) as [s [a|e| |]]; cbn [fst snd] in *; try discriminate; [apply Hk|intro E; apply Hx; congruence]. Qed.
Lemma eofe_call {A} n (p : list Z -> res (A * list Z)) : eofe (e_call at_end n p).
Proof. intros bs. unfold e_call. destruct (p bs) as [[a r]|e| |]; try discriminate. reflexivity. Qed.
Lemma eofe_u_varint m : eofe (e_u_varint m).
Proof.
  intro bs. unfold e_u_varint. generalize 0 at 1 3. generalize 0. induction bs as [|b bs IH]; intros s r; cbn [e_varint_loop]; [reflexivity|].
  unfold shl_u64. destruct (s <? 64); [|destruct m; [discriminate|]]; (destruct (Z.land b 128 =? 0); [discriminate|apply IH]).
Qed.
Lemma eofe_i_varint m : eofe (e_i_varint m). Proof. apply eofe_bind; [apply eofe_u_varint|intro; apply eofe_ret]. Qed.
Lemma arith_neof m w v : arith m w v <> Err EOF. Proof. unfold arith. destruct (_ =? _); [discriminate|]. destruct m; discriminate. Qed.
Lemma diff_neof m c i : diff_addresses_to_u64 m c i <> Err EOF.
Proof. unfold diff_addresses_to_u64. destruct (_ >=? _); [discriminate|]. pose proof (arith_neof m to_i64 (Z.abs i)). destruct (arith _ _ _); cbn [bind]; congruence. Qed.
Ltac eofes := repeat first
  [ apply eofe_bind; [|intros] | apply eofe_ret | apply eofe_call | apply eofe_u_varint | apply eofe_i_varint
  | apply eofe_lift; first [apply arith_neof | apply diff_neof | discriminate]
  | match goal with |- eofe (let '(_, _) := ?x in _) => destruct x end
  | match goal with |- eofe (match ?x with _ => _ end) => destruct x end
  | match goal with |- eofe (elift (match ?x with _ => _ end)) => destruct x end ].
Lemma eofe_section m : eofe (e_section at_end m).
Proof.
  unfold e_section. apply eofe_bind; [unfold e_section_header; eofes|]. intros h bs. unfold e_read_ops. generalize (S (length bs)). intro k. revert bs.
  apply eofe_bind.
  - assert (G : forall n d o cs na, eofe (e_ops_loop k at_end m (h_format h) n d o cs na)); [|apply G]. induction k as [|k IH]; intros n d o cs na; cbn [e_ops_loop]; (destruct (n <=? 0); [apply eofe_ret|]); [apply eofe_lift; discriminate|].
    apply eofe_bind; [unfold e_op, e_u8, e_u16, e_exact; eofes|]. intros [[o0 d1] o1]. apply eofe_bind; [eofes|]. intro. apply eofe_bind; [eofes|]. intro.
    apply eofe_bind; [apply IH|]. intros [[? ?] ?]. apply eofe_ret.
  - intros [[ops cs] na]. destruct (negb _); [apply eofe_lift; discriminate|]. destruct (h_format h); [apply eofe_ret|]. apply eofe_bind; [|intro; apply eofe_ret].
    induction ops as [|o ops IH]; cbn [e_fill]; [apply eofe_ret|]. destruct o; [apply eofe_bind; [apply eofe_call|intro]|..]; (apply eofe_bind; [apply IH|intro; apply eofe_ret]).
Qed.

Lemma polls_empty sec : sec [] = ([], Err EOF) -> forall n, fst (ei_polls sec n (mkEI [] false)) = repeat (Some (Err EOF)) n.
Proof.
  intro H. induction n as [|n IH]; [reflexivity|]. cbn [ei_polls]. unfold ei_next at 1. cbn [ei_done ei_source]. rewrite H.
  destruct (ei_polls sec n (mkEI [] false)) as [l it]. cbn [fst repeat] in *. rewrite IH. reflexivity.
Qed.
Lemma firstn_repeat {A} (x : A) : forall n k, (n <= k)%nat -> firstn n (repeat x k) = repeat x n.
Proof. induction n as [|n IH]; intros k H; [reflexivity|]. destruct k as [|k]; [lia|]. cbn [repeat firstn]. f_equal. apply IH. lia. Qed.

(** The reader's iterator over any patch whose last bytes are missing: the whole sections that are there, and then end-of-file errors, for ever. A caller that skips errors, e.g. with
    [flatten] or [filter_map(Result::ok)], never gets to the end. *)
Theorem C97_cut_patch_never_ends : forall m patch secs c1 c2, patch_read (read_section m) patch secs [] -> patch = c1 ++ c2 -> c2 <> [] ->
  exists k, (k < length secs)%nat /\ forall n,
    calls (e_section at_end m) n c1 = firstn n (map (fun s => Some (Ok s)) (firstn k secs) ++ repeat (Some (Err EOF)) n).
Proof.
  intros m patch secs c1 c2 HP E Hne.
  assert (G : forall patch secs fin, patch_read (read_section m) patch secs fin -> fin = [] -> forall c1, patch = c1 ++ c2 -> exists k, (k < length secs)%nat /\ forall n,
    calls (e_section at_end m) n c1 = firstn n (map (fun s => Some (Ok s)) (firstn k secs) ++ repeat (Some (Err EOF)) n)); [|exact (G patch secs [] HP eq_refl c1 E)].
  clear patch secs c1 HP E.
  assert (ADV : advances (e_section at_end m)) by (apply advances_section; intros n bs; exists bs; symmetry; apply app_nil_r).
  assert (CUT : forall c1, read_section m c1 = Err EOF -> forall n, fst (ei_polls (e_section at_end m) n (mkEI c1 false)) = repeat (Some (Err EOF)) n).
  { intros c1 E n. destruct n as [|n]; [reflexivity|]. cbn [ei_polls]. unfold ei_next at 1. cbn [ei_done ei_source].
    pose proof (agr_section at_end m c1) as HS. rewrite E in HS. pose proof (eofe_section m c1 HS) as HF. destruct (e_section at_end m c1) as [z o]. cbn [fst snd] in HS, HF. subst z o.
    pose proof (polls_empty _ (proj2 ADV) n) as PE. destruct (ei_polls (e_section at_end m) n (mkEI [] false)) as [l it]. cbn [fst repeat] in *. rewrite PE. reflexivity. }
  assert (NOW : forall bs ops h r c1, read_section m bs = Ok (ops, h, r) -> bs = c1 ++ c2 -> (exists x, r = x ++ c2 /\ forall y, read_section m (c1 ++ y) = Ok (ops, h, x ++ y)) \/ read_section m c1 = Err EOF).
  { intros bs ops h r c1 ER E. destruct (streaming_section m _ _ _ ER) as (c & Ec & Ht & Hc). subst bs.
    destruct (app_prefix_cases c r c1 c2 (eq_sym Ec)) as [(x & Hx & Hr & Hn)|(x & Hx & Hr)].
    - right. subst c. exact (Hc c1 x eq_refl Hn).
    - left. exists x. split; [exact Hr|]. intro y. subst c1. rewrite <- app_assoc. apply Ht. }
  induction 1 as [bs ops h r ER Em|bs ops h r secs r' ER Em HP IH]; intros Ef c1 E; (destruct (NOW _ _ _ _ _ ER E) as [(x & Hr & HR)|HC];
    [|exists 0%nat; split; [cbn; lia|]; intro n; cbn [firstn map app]; rewrite firstn_repeat by lia; apply CUT, HC]).
  - rewrite Hr in Ef. apply app_eq_nil in Ef as [_ Ef]. contradiction.
  - destruct (IH Ef x Hr) as (k & Hk & HI). exists (S k). split; [cbn; lia|]. intro n. destruct n as [|n]; [reflexivity|].
    unfold calls, ei_new. cbn [ei_polls]. unfold ei_next at 1. cbn [ei_done ei_source]. specialize (HR []). rewrite !app_nil_r in HR.
    pose proof (agr_section at_end m c1) as HS. rewrite HR in HS. rewrite HS, Em. cbn [negb]. specialize (HI n). unfold calls, ei_new in HI.
    destruct (ei_polls (e_section at_end m) n (mkEI x false)) as [l it]. cbn [fst firstn map app] in *. rewrite HI. f_equal.
    rewrite !firstn_app, !firstn_repeat; [reflexivity|lia|lia].
Qed.

(** ** Concrete cases *)
(** Both kinds of readers the standard library has had meet the assumption. *)
Example C97_readers : takes_from_front at_end /\ takes_from_front (fun _ bs => bs).
Proof. split; intros n bs; [exists bs; symmetry; apply app_nil_r|apply end_refl]. Qed.
Definition plain : codecs := mkCodecs (fun _ l => l) (fun l => Ok l) (fun l => Ok (l, [])) (fun _ l => l) (fun l => Ok (l, [])).
Example C97_goes_on_example : codecs_front plain /\ forall n i x, nth_error (calls (e_next_section at_end (fun _ => []) Debug plain) n [128; 1; 3; 131; 65; 66; 67; 0; 1; 9]) i = Some x ->
  x <> None /\ ((10 <= i)%nat -> x = Some (Err EOF)).
Proof.
  assert (HC : codecs_front plain).
  { split; intros bs dec rest E; cbn in E; injection E as <- <-; exists bs; symmetry; apply app_nil_r. }
  split; [exact HC|]. intros n i x Hx.
  destruct (C97_goes_on Debug plain at_end (fun _ => []) (proj1 C97_readers) ltac:(intro bs; exists bs; symmetry; apply app_nil_r) HC) as [_ G].
  destruct (G _ n i x Hx) as (G1 & _ & G3).
  assert (N : x <> None).
  { intro E. apply G1 in E as (j & ops & h & Hj & Ej & Em).
    assert (K : forall k, fst (ei_polls (e_next_section at_end (fun _ => []) Debug plain) k (mkEI [] false)) = repeat (Some (Err EOF)) k) by (apply polls_empty; reflexivity).
    unfold calls, ei_new in Ej. destruct n as [|n]; [destruct j; discriminate|]. cbn [ei_polls] in Ej.
    remember (ei_next (e_next_section at_end (fun _ => []) Debug plain) (mkEI [128; 1; 3; 131; 65; 66; 67; 0; 1; 9] false)) as y eqn:Ey. vm_compute in Ey. subst y.
    destruct n as [|n]; [destruct j as [|[|j]]; cbn in Ej; try discriminate; injection Ej as <- <-; discriminate Em|]. cbn [ei_polls] in Ej.
    remember (ei_next (e_next_section at_end (fun _ => []) Debug plain) (mkEI [0; 1; 9] false)) as y eqn:Ey. vm_compute in Ey. subst y.
    specialize (K n). destruct (ei_polls _ n (mkEI [] false)) as [l it]. cbn [fst] in K, Ej. subst l.
    destruct j as [|[|j]]; cbn [nth_error] in Ej.
    - injection Ej as <- <-. discriminate Em.
    - discriminate.
    - apply nth_error_In, repeat_spec in Ej. discriminate. }
  split; [exact N|]. intro L. destruct (G3 L) as [->|E]; [contradiction|exact E].
Qed.
Example C97_cut_patch_example : let p := [128; 1; 3; 131; 65; 66; 67; 0; 1; 2; 130; 68; 69] in
  exists secs, patch_read (read_section Debug) p secs [] /\ length secs = 2%nat /\
  forall n, calls (e_section at_end Debug) (S n) (take 12 p) = Some (Ok ([Add [65; 66; 67]], mkHeader 0 Interleaved true 1 0 3)) :: repeat (Some (Err EOF)) n.
Proof.
  cbv zeta. eexists. split; [eapply pr_more; [vm_compute; reflexivity|reflexivity|]; apply pr_last; [vm_compute; reflexivity|reflexivity]|]. split; [reflexivity|]. intro n.
  set (p := [128; 1; 3; 131; 65; 66; 67; 0; 1; 2; 130; 68; 69]).
  destruct (C97_cut_patch_never_ends Debug p [([Add [65; 66; 67]], mkHeader 0 Interleaved true 1 0 3); ([Add [68; 69]], mkHeader 0 Interleaved false 1 0 2)] (take 12 p) [69]) as (k & Hk & H).
  - eapply pr_more; [vm_compute; reflexivity|reflexivity|]. apply pr_last; [vm_compute; reflexivity|reflexivity].
  - reflexivity.
  - discriminate.
  - pose proof (H 1%nat) as H1. specialize (H (S n)). cbn [length] in Hk. destruct k as [|[|k]]; [|..|lia].
    + exfalso. vm_compute in H1. discriminate.
    + rewrite H. cbn [firstn map app]. rewrite firstn_repeat by lia. reflexivity.
Qed.

(** The belief that an iterator over an unreadable patch yields no operations behind the error is refuted: here the first section is rejected (a RUN of an illegal size), and the next call reads
    a section from the middle of it, which no section of the patch contains, and then reports the end. *)
Theorem C97_refuted : exists bytes ops h,
  (forall left, calls (e_section left Debug) 4 bytes = [Some (Err InvalidData); Some (Ok (ops, h)); None; None]) /\ ops <> [] /\
  read_section Debug bytes = Err InvalidData.
Proof. exists [0; 2; 7; 192; 0; 1; 3; 131; 65; 66; 67], [Add [65; 66; 67]], (mkHeader 0 Interleaved false 1 0 3). split; [intro left; vm_compute; reflexivity|]. split; [discriminate|vm_compute; reflexivity]. Qed.

Print Assumptions C97_same_results.
Print Assumptions C97_goes_on.
Print Assumptions C97_cut_patch_never_ends.
Print Assumptions C97_refuted.
