(** Properties C80, C81: operation buffers and the section iterators. *)
From Verif Require Import Base Spec MCommon MWriter MReader MDecoder MIter SpecApi PBase PStream PDecoder PPatch PRobust PMerge PMerge4 TSection TApply TEncode TMerge.
Ltac Zify.zify_post_hook ::= idtac.
Arguments Z.add : simpl never.
Arguments Z.sub : simpl never.
Arguments Z.pow : simpl never.

(** [a] fails, and so does [b], in the same way *)
Definition same_failure {A B} (a : res A) (b : res B) : Prop :=
  match a, b with Err e, Err e' => e = e' | Panic, Panic => True | Diverge, Diverge => True | _, _ => False end.

(** Where the literals are, counting from [p] *)
Fixpoint add_pos (p : Z) (ops : list op) : list Z :=
  match ops with [] => [] | o :: r => (if is_add o then [p] else []) ++ add_pos (p + 1) r end.
Lemma buf_loop_spec m f off n : forall k i d o cs bs buf nadd idxs, off + i = zlen buf ->
  match read_ops_loop k m f (n - i) d o cs nadd bs with
  | Ok (ops, cs', nadd', bs') =>
      buf_loop k m f off n i d o cs bs buf nadd idxs = (buf ++ ops, nadd', idxs ++ (if is_segregated f then add_pos (zlen buf) ops else []), Ok (cs', bs'))
  | r => exists ops nadd' idxs' r', buf_loop k m f off n i d o cs bs buf nadd idxs = (buf ++ ops, nadd', idxs', r') /\ same_failure r r'
  end.
Proof.
  induction k as [|k IH]; intros i d o cs bs buf nadd idxs Hi.
  - cbn [read_ops_loop buf_loop]. replace (n - i <=? 0) with (n <=? i) by lia. destruct (n <=? i).
    + rewrite app_nil_r. destruct (is_segregated f); cbn [add_pos]; now rewrite app_nil_r.
    + exists [], nadd, idxs, Diverge. rewrite app_nil_r. split; [reflexivity|exact I].
  - cbn [read_ops_loop buf_loop]. replace (n - i <=? 0) with (n <=? i) by lia. destruct (n <=? i).
    { rewrite app_nil_r. destruct (is_segregated f); cbn [add_pos]; now rewrite app_nil_r. }
    assert (F : forall (r : res (list op * Z * Z * list Z)) (x : res (Z * list Z)), same_failure r x -> exists ops nadd' idxs' r', (buf, nadd, idxs, x) = (buf ++ ops, nadd', idxs', r') /\ same_failure r r').
    { intros r x H. exists [], nadd, idxs, x. rewrite app_nil_r. auto. }
    destruct (read_op m d o (negb (is_segregated f)) bs) as [[[[x d'] o'] bs']|e| |]; cbn [bind try]; [|apply F; reflexivity|apply F; exact I|apply F; exact I].
    destruct (arith m to_u32 (cs + oal x)) as [cs'|e| |]; cbn [bind try]; [|apply F; reflexivity|apply F; exact I|apply F; exact I].
    assert (K : forall na ix, (if is_segregated f && is_add x then ix = idxs ++ [off + i] else ix = idxs) ->
      match (do (ops, cs, nadd, bs) <- read_ops_loop k m f (n - i - 1) d' o' cs' na bs'; Ok (x :: ops, cs, nadd, bs)) with
      | Ok (ops, cs2, nadd2, bs2) => buf_loop k m f off n (i + 1) d' o' cs' bs' (buf ++ [x]) na ix = (buf ++ ops, nadd2, idxs ++ (if is_segregated f then add_pos (zlen buf) ops else []), Ok (cs2, bs2))
      | r => exists ops nadd2 idxs2 r', buf_loop k m f off n (i + 1) d' o' cs' bs' (buf ++ [x]) na ix = (buf ++ ops, nadd2, idxs2, r') /\ same_failure r r'
      end).
    { intros na ix Hx. assert (Hz : off + (i + 1) = zlen (buf ++ [x])) by (rewrite zlen_app; change (zlen [x]) with 1; lia).
      specialize (IH (i + 1) d' o' cs' bs' (buf ++ [x]) na ix Hz). replace (n - (i + 1)) with (n - i - 1) in IH by lia.
      destruct (read_ops_loop k m f (n - i - 1) d' o' cs' na bs') as [[[[ops c2] n2] b2]|e| |]; cbn [bind].
      - rewrite IH, <- app_assoc. cbn [app]. f_equal. f_equal. rewrite zlen_app in *. change (zlen [x]) with 1 in *.
        destruct (is_segregated f); cbn [andb add_pos] in *; [|now rewrite Hx]. destruct (is_add x); rewrite Hx; [rewrite <- app_assoc; cbn [app]; now rewrite Hi|reflexivity].
      - destruct IH as (ops & n2 & i2 & r' & E & S). rewrite E, <- app_assoc. exists ([x] ++ ops), n2, i2, r'. auto.
      - destruct IH as (ops & n2 & i2 & r' & E & S). rewrite E, <- app_assoc. exists ([x] ++ ops), n2, i2, r'. auto.
      - destruct IH as (ops & n2 & i2 & r' & E & S). rewrite E, <- app_assoc. exists ([x] ++ ops), n2, i2, r'. auto. }
    destruct (is_segregated f && is_add x); [|apply K; reflexivity].
    destruct (arith m to_u32 (nadd + oal x)) as [na|e| |]; cbn [bind try]; [apply K; reflexivity|apply F; reflexivity|apply F; exact I|apply F; exact I].
Qed.
Lemma idx_at (pre : list op) x post : idx (pre ++ x :: post) (zlen pre) = Ok x.
Proof.
  unfold idx. pose proof (zlen_nonneg pre). replace (zlen pre <? 0) with false by lia. unfold zlen. rewrite Nat2Z.id, nth_error_app2 by lia. now rewrite Nat.sub_diag.
Qed.
Lemma put_at pre x y post : put (pre ++ x :: post) (zlen pre) y = pre ++ y :: post.
Proof.
  unfold put, take, drop. replace (Z.to_nat (zlen pre)) with (length pre) by (unfold zlen; lia). replace (Z.to_nat (zlen pre + 1)) with (S (length pre)) by (unfold zlen; lia).
  rewrite firstn_app, firstn_all, Nat.sub_diag, skipn_app. cbn [firstn]. rewrite app_nil_r. replace (S (length pre) - length pre)%nat with 1%nat by lia. rewrite skipn_all2 by lia. reflexivity.
Qed.
Lemma buf_fill_spec : forall ops pre bs,
  match fill_adds ops bs with
  | Ok (ops', r) => buf_fill (add_pos (zlen pre) ops) bs (pre ++ ops) = (pre ++ ops', Ok r)
  | r => exists ops' r', buf_fill (add_pos (zlen pre) ops) bs (pre ++ ops) = (pre ++ ops', r') /\ same_failure r r'
  end.
Proof.
  induction ops as [|x ops IH]; intros pre bs; [reflexivity|].
  assert (K : forall y bs', match (do (l, b) <- fill_adds ops bs'; Ok (y :: l, b)) with
    | Ok (ops', r) => buf_fill (add_pos (zlen pre + 1) ops) bs' (pre ++ y :: ops) = (pre ++ ops', Ok r)
    | r => exists ops' r', buf_fill (add_pos (zlen pre + 1) ops) bs' (pre ++ y :: ops) = (pre ++ ops', r') /\ same_failure r r'
    end).
  { intros y bs'. specialize (IH (pre ++ [y]) bs'). rewrite zlen_app, <- app_assoc in IH. change (zlen [y]) with 1 in IH. cbn [app] in IH.
    destruct (fill_adds ops bs') as [[l b]|e| |]; cbn [bind]; [rewrite IH, <- app_assoc; reflexivity|..]; destruct IH as (l & r' & E & S); rewrite E, <- app_assoc; exists ([y] ++ l), r'; auto. }
  destruct x as [z|b n|s a n]; cbn [fill_adds add_pos is_add app]; [|apply K|apply K].
  cbn [buf_fill]. rewrite idx_at. cbn [try]. destruct (read_exact (zlen z) bs) as [[b bs']|e| |]; cbn [bind try].
  - rewrite put_at. apply K.
  - exists (Add z :: ops), (Err e). split; reflexivity.
  - exists (Add z :: ops), Panic. split; [reflexivity|exact I].
  - exists (Add z :: ops), Diverge. split; [reflexivity|exact I].
Qed.

(** C80. Reading operations, or a section, into a buffer that already holds operations: what was there stays in front, and what is appended, the header, the unread bytes or the error are
    those of reading into an empty buffer. *)
Theorem C80_buffers_are_appended_to :
  (forall m h bs buf, match read_ops_no_comp m h bs with
     | Ok (ops, h', r) => read_ops_buf m h bs buf = ((buf ++ ops, h'), Ok r)
     | r => exists ops h' r', read_ops_buf m h bs buf = ((buf ++ ops, h'), r') /\ same_failure r r'
     end) /\
  (forall m bs buf, match read_section m bs with
     | Ok (ops, h, r) => read_section_buf m bs buf = (buf ++ ops, Ok (h, r))
     | r => exists ops r', read_section_buf m bs buf = (buf ++ ops, r') /\ same_failure r r'
     end).
Proof.
  assert (A : forall m h bs buf, match read_ops_no_comp m h bs with
     | Ok (ops, h', r) => read_ops_buf m h bs buf = ((buf ++ ops, h'), Ok r)
     | r => exists ops h' r', read_ops_buf m h bs buf = ((buf ++ ops, h'), r') /\ same_failure r r'
     end).
  { intros m h bs buf. unfold read_ops_no_comp, read_ops_buf.
    pose proof (buf_loop_spec m (h_format h) (zlen buf) (h_nops h) (S (length bs)) 0 0 0 0 bs buf (h_nadd h) [] ltac:(lia)) as L. rewrite Z.sub_0_r in L.
    destruct (read_ops_loop (S (length bs)) m (h_format h) (h_nops h) 0 0 0 (h_nadd h) bs) as [[[[ops cs] nadd] r]|e| |]; cbn [bind].
    - rewrite L. cbn [try app]. destruct (h_format h) eqn:Ef; cbn [set_nadd h_osize is_segregated]; rewrite ?Ef.
      + destruct (negb (cs =? h_osize h)); [|reflexivity]. exists ops, h, (Err InvalidData). split; reflexivity.
      + destruct (negb (cs =? h_osize h)); [exists ops, (set_nadd h nadd), (Err InvalidData); split; reflexivity|]. cbn [set_nadd h_format]. rewrite ?Ef.
        pose proof (buf_fill_spec ops buf r) as F. destruct (fill_adds ops r) as [[ops' r']|e| |]; cbn [bind]; [now rewrite F|..]; destruct F as (l & r' & E & S); rewrite E; eauto.
    - destruct L as (ops & na & ix & r' & E & S). rewrite E. destruct r' as [x|e'| |]; try contradiction S. cbn [try]. eauto.
    - destruct L as (ops & na & ix & r' & E & S). rewrite E. destruct r' as [x|e'| |]; try contradiction S. cbn [try]. eauto.
    - destruct L as (ops & na & ix & r' & E & S). rewrite E. destruct r' as [x|e'| |]; try contradiction S. cbn [try]. eauto. }
  split; [exact A|]. intros m bs buf. unfold read_section, read_section_buf.
  destruct (read_section_header m bs) as [[h r]|e| |]; cbn [bind try]; [|exists [], (Err e); rewrite app_nil_r; split; reflexivity|exists [], Panic; rewrite app_nil_r; split; [reflexivity|exact I]|exists [], Diverge; rewrite app_nil_r; split; [reflexivity|exact I]].
  specialize (A m h r buf). destruct (read_ops_no_comp m h r) as [[[ops h'] r2]|e| |]; [rewrite A; reflexivity|..];
    destruct A as (ops & h' & r' & E & S); rewrite E; destruct r' as [x|e'| |]; try contradiction S; cbn [try]; eexists; eexists; (split; [reflexivity|exact S]).
Qed.

(** ** Histories of iterator calls *)
(** The results of a sequence of calls, each next_borrowed or next, and the iterator afterwards; an error ends it. *)
Fixpoint history {I} (next : call -> I -> res (option (list op * header) * I)) (cs : list call) (it : I) : res (list (option (list op * header)) * I) :=
  match cs with
  | [] => Ok ([], it)
  | c :: cs => do (x, it) <- next c it; do (l, it) <- history next cs it; Ok (x :: l, it)
  end.
(** What [n] calls over a patch with sections [secs] give: the sections in order, then None again and again. *)
Definition first_calls (n : nat) (secs : list (list op * header)) : list (option (list op * header)) := firstn n (map Some secs ++ repeat None n).

Lemma section_buf m bs : match read_section m bs with
  | Ok (ops, h, r) => read_section_buf m bs [] = (ops, Ok (h, r))
  | r => exists ops r', read_section_buf m bs [] = (ops, r') /\ same_failure r r'
  end.
Proof. exact (proj2 C80_buffers_are_appended_to m bs []). Qed.
Lemma ri_next_spec m c bs buf : match read_section m bs with
  | Ok (ops, h, r) => exists buf', ri_next m c (mkRI bs false buf) = Ok (Some (ops, h), mkRI r (negb (h_more h)) buf')
  | r => same_failure r (ri_next m c (mkRI bs false buf))
  end.
Proof.
  unfold ri_next. cbn [ri_done ri_source]. pose proof (section_buf m bs) as S. destruct (read_section m bs) as [[[ops h] r]|e| |].
  - rewrite S. destruct c; cbn [bind]; eauto.
  - destruct S as (ops & r' & E & S). rewrite E. destruct r' as [[? ?]|e'| |]; try contradiction S. destruct c; exact S.
  - destruct S as (ops & r' & E & S). rewrite E. destruct r' as [[? ?]|e'| |]; try contradiction S. destruct c; exact S.
  - destruct S as (ops & r' & E & S). rewrite E. destruct r' as [[? ?]|e'| |]; try contradiction S. destruct c; exact S.
Qed.
Lemma ops_buf m h bs : match read_ops_no_comp m h bs with
  | Ok (ops, h', r) => read_ops_buf m h bs [] = ((ops, h'), Ok r)
  | r => exists ops h' r', read_ops_buf m h bs [] = ((ops, h'), r') /\ same_failure r r'
  end.
Proof. exact (proj1 C80_buffers_are_appended_to m h bs []). Qed.
Lemma di_next_spec m cd c bs win buf : match next_section m cd bs with
  | Ok (ops, h, r) => exists win' buf', di_next m cd c (mkDI bs false win buf) = Ok (Some (ops, h), mkDI r (negb (h_more h)) win' buf')
  | r => same_failure r (di_next m cd c (mkDI bs false win buf))
  end.
Proof.
  unfold next_section, di_next. cbn [di_done di_source]. destruct (read_section_header m bs) as [[h body]|e| |]; cbn [bind]; [|reflexivity|exact I|exact I].
  unfold di_read_ops.
  assert (K : forall w src (rest : list Z -> list Z),
    match (do (ops, h', r) <- read_ops_no_comp m h src; Ok (ops, h', rest r)) with
    | Ok (ops, h', r) => exists win' buf', (let '(win, ops, r) := (let '(ops, h, r) := read_ops_buf m h src [] in try (w, ops) r (fun r => ((w, ops), Ok (h, rest r)))) in
        do (h, rest) <- r; Ok (Some (ops, h), mkDI rest (negb (h_more h)) win (match c with Borrowed => ops | Owned => [] end))) = Ok (Some (ops, h'), mkDI r (negb (h_more h')) win' buf')
    | r => same_failure r (let '(win, ops, r) := (let '(ops, h, r) := read_ops_buf m h src [] in try (w, ops) r (fun r => ((w, ops), Ok (h, rest r)))) in
        do (h, rest) <- r; Ok (Some (ops, h), mkDI rest (negb (h_more h)) win (match c with Borrowed => ops | Owned => [] end)))
    end).
  { intros w src rest. pose proof (ops_buf m h src) as S. destruct (read_ops_no_comp m h src) as [[[ops h'] r]|e| |]; cbn [bind].
    - rewrite S. cbn [try bind]. eauto.
    - destruct S as (ops & h' & r' & E & S). rewrite E. destruct r' as [?|e'| |]; try contradiction S. exact S.
    - destruct S as (ops & h' & r' & E & S). rewrite E. destruct r' as [?|e'| |]; try contradiction S. exact S.
    - destruct S as (ops & h' & r' & E & S). rewrite E. destruct r' as [?|e'| |]; try contradiction S. exact S. }
  destruct (h_comp h =? 1); [|destruct (h_comp h =? 2); [|destruct (h_comp h =? 3)]].
  - destruct (apply_no_sec_comp m None body (mkSink [] 0)) as [s [rest|e| |]]; cbn [try bind]; [|reflexivity|exact I|exact I]. exact (K (sbuf s) (sbuf s) (fun _ => rest)).
  - destruct (zstd_dec cd body) as [[dec rest]|e| |]; cbn [try bind]; [|reflexivity|exact I|exact I]. exact (K [] dec (fun _ => rest)).
  - destruct (brotli_dec cd body) as [[dec rest]|e| |]; cbn [try bind]; [|reflexivity|exact I|exact I]. exact (K [] dec (fun _ => rest)).
  - specialize (K [] body (fun r => r)). destruct (read_ops_no_comp m h body) as [[[ops h'] r]|e| |]; exact K.
Qed.

(** Both iterators, seen alike: a state is done, or not done with some bytes left. *)
Lemma history_spec {I} (read : next_t) (next : call -> I -> res (option (list op * header) * I)) (at_ : list Z -> I -> Prop) (fin : list Z -> I -> Prop) :
  (forall c bs it, at_ bs it -> match read bs with
     | Ok (ops, h, r) => exists it', next c it = Ok (Some (ops, h), it') /\ (if h_more h then at_ r it' else fin r it')
     | r => same_failure r (next c it) end) ->
  (forall c bs it, fin bs it -> next c it = Ok (None, it)) ->
  (forall bs secs r, patch_read read bs secs r -> forall cs it, at_ bs it ->
     exists it', history next cs it = Ok (first_calls (length cs) secs, it') /\ ((length secs <= length cs)%nat -> fin r it')) /\
  (forall bs l r, sections_read read bs l r -> (forall x, read r <> Ok x) -> forall cs it, at_ bs it -> (length l < length cs)%nat -> same_failure (read r) (history next cs it)).
Proof.
  intros Hn Hf.
  assert (Hd : forall cs bs it, fin bs it -> history next cs it = Ok (repeat None (length cs), it)).
  { induction cs as [|c cs IH]; intros bs it Hb; [reflexivity|]. cbn [history]. rewrite (Hf c bs it Hb). cbn [bind]. rewrite (IH bs it Hb). reflexivity. }
  split.
  - induction 1 as [bs ops h r E Em|bs ops h r secs r' E Em Hp IH]; intros cs it Ha.
    + destruct cs as [|c cs]; [exists it; split; [reflexivity|intro L; cbn in L; lia]|]. specialize (Hn c bs it Ha). rewrite E, Em in Hn. destruct Hn as (it' & En & Hfin).
      exists it'. cbn [history]. rewrite En. cbn [bind]. rewrite (Hd cs r it' Hfin). cbn [bind]. split; [|auto]. unfold first_calls. cbn [map app firstn length]. do 3 f_equal.
      clear. cbn [repeat].
      assert (G : forall (n : nat) (x : option (list op * header)), firstn n (repeat x (S n)) = repeat x n). { induction n as [|n IH]; intro x; [reflexivity|]. cbn [firstn repeat] in *. f_equal. apply IH. }
      symmetry. apply (G (length cs)).
    + destruct cs as [|c cs]; [exists it; split; [reflexivity|intro L; cbn in L; lia]|]. specialize (Hn c bs it Ha). rewrite E, Em in Hn. destruct Hn as (it1 & En & Ha1).
      destruct (IH cs it1 Ha1) as (it' & Eh & Hfin). exists it'. cbn [history]. rewrite En. cbn [bind]. rewrite Eh. cbn [bind]. split; [|intro L; apply Hfin; cbn in L; lia].
      do 2 f_equal. unfold first_calls. cbn [map app firstn length]. f_equal.
      assert (G : forall (n : nat) l, firstn n (l ++ repeat (@None (list op * header)) (S n)) = firstn n (l ++ repeat None n)).
      { clear. intros n l. rewrite !firstn_app. f_equal. assert (G : forall (n k : nat) (x : option (list op * header)), (k <= n)%nat -> firstn k (repeat x (S n)) = firstn k (repeat x n)).
        { clear. induction n as [|n IH]; intros k x H; [replace k with 0%nat by lia; reflexivity|]. destruct k as [|k]; [reflexivity|]. cbn [firstn repeat] in *. f_equal. apply IH. lia. }
        apply G. lia. }
      symmetry. apply G.
  - induction 1 as [bs|bs ops h r l r' E Em Hs IH]; intros Hx cs it Ha Hl; (destruct cs as [|c cs]; [cbn in Hl; lia|]); specialize (Hn c bs it Ha); cbn [history].
    + destruct (read bs) as [[[ops h] r]|e| |] eqn:Eb; [exfalso; exact (Hx _ eq_refl)|..]; destruct (next c it) as [[? ?]|e'| |]; try contradiction Hn; exact Hn.
    + rewrite E, Em in Hn. destruct Hn as (it1 & En & Ha1). rewrite En. cbn [bind]. specialize (IH Hx cs it1 Ha1 ltac:(cbn in Hl; lia)).
      destruct (history next cs it1) as [[? ?]|e'| |]; destruct (read r') as [?|e''| |]; try contradiction IH; exact IH.
Qed.

(** C81. Over any bytes that read as a patch, both iterators, called in any mixture of next_borrowed and next, yield the sections of the patch in order (decompressed, by the decoder's iterator) and
    then None, however often they are called; when all sections are read the source stands behind the patch. Over other bytes they yield the whole
    sections there are and then the error of the first one that cannot be read. *)
Theorem C81_iterator_histories : forall m cd,
  (forall bytes secs r cs, patch_read (next_section m cd) bytes secs r ->
     exists it, history (di_next m cd) cs (di_new bytes) = Ok (first_calls (length cs) secs, it) /\ ((length secs <= length cs)%nat -> di_source it = r)) /\
  (forall bytes l r cs, sections_read (next_section m cd) bytes l r -> (forall x, next_section m cd r <> Ok x) -> (length l < length cs)%nat ->
     same_failure (next_section m cd r) (history (di_next m cd) cs (di_new bytes))) /\
  (forall bytes secs r cs, patch_read (read_section m) bytes secs r ->
     exists it, history (ri_next m) cs (ri_new bytes) = Ok (first_calls (length cs) secs, it) /\ ((length secs <= length cs)%nat -> ri_source it = r)) /\
  (forall bytes l r cs, sections_read (read_section m) bytes l r -> (forall x, read_section m r <> Ok x) -> (length l < length cs)%nat ->
     same_failure (read_section m r) (history (ri_next m) cs (ri_new bytes))).
Proof.
  intros m cd.
  destruct (history_spec (next_section m cd) (di_next m cd) (fun bs it => di_source it = bs /\ di_done it = false) (fun bs it => di_source it = bs /\ di_done it = true)) as [D1 D2].
  { intros c bs [src dn win buf] [E1 E2]. cbn in E1, E2. subst. pose proof (di_next_spec m cd c bs win buf) as S. destruct (next_section m cd bs) as [[[ops h] r]|e| |]; try exact S.
    destruct S as (w & b & S). eexists. split; [exact S|]. destruct (h_more h); split; reflexivity. }
  { intros c bs [src dn win buf] [E1 E2]. cbn in E2. subst. reflexivity. }
  destruct (history_spec (read_section m) (ri_next m) (fun bs it => ri_source it = bs /\ ri_done it = false) (fun bs it => ri_source it = bs /\ ri_done it = true)) as [R1 R2].
  { intros c bs [src dn buf] [E1 E2]. cbn in E1, E2. subst. pose proof (ri_next_spec m c bs buf) as S. destruct (read_section m bs) as [[[ops h] r]|e| |]; try exact S.
    destruct S as (b & S). eexists. split; [exact S|]. destruct (h_more h); split; reflexivity. }
  { intros c bs [src dn buf] [E1 E2]. cbn in E2. subst. reflexivity. }
  split; [|split; [|split]].
  - intros bytes secs r cs Hp. destruct (D1 _ _ _ Hp cs (di_new bytes) (conj eq_refl eq_refl)) as (it & E & F). exists it. split; [exact E|]. intro L. apply F, L.
  - intros bytes l r cs Hs Hx L. exact (D2 _ _ _ Hs Hx cs (di_new bytes) (conj eq_refl eq_refl) L).
  - intros bytes secs r cs Hp. destruct (R1 _ _ _ Hp cs (ri_new bytes) (conj eq_refl eq_refl)) as (it & E & F). exists it. split; [exact E|]. intro L. apply F, L.
  - intros bytes l r cs Hs Hx L. exact (R2 _ _ _ Hs Hx cs (ri_new bytes) (conj eq_refl eq_refl) L).
Qed.

(** The loop of apply_patch over the iterator is the loop of MDecoder.v. *)
Theorem C81_apply_over_iterator : forall m cd, codecs_shrink cd -> forall bytes dict s, apply_patch_iter m cd bytes dict s = apply_patch m cd bytes dict s.
Proof.
  intros m cd Hs bytes dict s. unfold apply_patch_iter, apply_patch.
  assert (G : forall k bs win buf s pos, (length bs < k)%nat ->
    apply_iter (S k) m cd dict (mkDI bs false win buf) s pos = (let '(s', r) := apply_loop (next_section m cd) k dict bs s pos in (s', do _ <- r; Ok tt))).
  { induction k as [|k IH]; intros bs win buf s0 pos Hk; [lia|]. cbn [apply_loop]. remember (S k) as k1. cbn [apply_iter]. subst k1.
    pose proof (di_next_spec m cd Borrowed bs win buf) as N. destruct (next_section m cd bs) as [[[ops h] r]|e| |] eqn:E.
    - destruct N as (w & b & N). rewrite N. cbn [try]. destruct (apply_ops dict ops s0 pos) as [[s' pos'] [[]|e| |]]; cbn [try]; try reflexivity.
      destruct (h_more h); cbn [negb]; [apply IH; pose proof (next_section_shrink m cd Hs bs ops h r E); lia|]. cbn [apply_iter di_next di_done try bind]. reflexivity.
    - destruct (di_next m cd Borrowed (mkDI bs false win buf)) as [[? ?]|e'| |]; try contradiction N. cbn [try bind]. cbn in N. now subst.
    - destruct (di_next m cd Borrowed (mkDI bs false win buf)) as [[? ?]|e'| |]; try contradiction N. reflexivity.
    - destruct (di_next m cd Borrowed (mkDI bs false win buf)) as [[? ?]|e'| |]; try contradiction N. reflexivity. }
  apply (G (S (length bytes)) bytes [] [] s 0). lia.
Qed.

(** A buffer with a literal in it; a segregated section with two literals is appended to it. A patch of two sections, the second compressed with brotli (of the example codec), read with five calls. *)
Definition it_seg : list Z := [64; 3; 3; 4; 130; 68; 0; 129; 7; 8; 9].
Definition it_patch : list Z := [128; 1; 2; 130; 5; 6; 24; 2; 3; 1; 130; 1; 1; 1; 2; 1; 193; 1; 3; 0; 77].
Example C80_example : forall m, exists h, read_section m it_seg = Ok ([Add [7; 8]; Copy Output 0 4; Add [9]], h, []) /\
  read_section_buf m it_seg [Add [1; 2; 3]; Run 0 5] = ([Add [1; 2; 3]; Run 0 5; Add [7; 8]; Copy Output 0 4; Add [9]], Ok (h, [])).
Proof. intros []; eexists; split; vm_compute; reflexivity. Qed.
Example C81_example : forall m, exists secs, patch_read (next_section m toy) it_patch secs [77] /\ map fst secs = [[Add [5; 6]]; [Add [1; 2]; Run 3 1]] /\
  exists it, history (di_next m toy) [Borrowed; Owned; Owned; Borrowed; Owned] (di_new it_patch) = Ok (map Some secs ++ [None; None; None], it) /\ di_source it = [77].
Proof.
  intro m. exists [([Add [5; 6]], mkHeader 0 Interleaved true 1 0 2); ([Add [1; 2]; Run 3 1], mkHeader 3 Interleaved false 2 0 3)]. split.
  - eapply pr_more; [destruct m; vm_compute; reflexivity|reflexivity|]. apply pr_last; [destruct m; vm_compute; reflexivity|reflexivity].
  - split; [reflexivity|]. destruct m; eexists; (split; [vm_compute; reflexivity|reflexivity]).
Qed.

Print Assumptions C80_buffers_are_appended_to.
Print Assumptions C81_iterator_histories.
Print Assumptions C81_apply_over_iterator.
