(** Properties C84 and C85: the writer fails; the scratch buffer of section_writer is used again. *)
From Verif Require Import Base Spec SpecEnc MCommon MWriter MReader MDecoder MOpMaker MTrgtMatcher MSrcMatcher MEncInner MEncode MMerger MTranscoder MVcdiff MWFault SpecApi SpecMerge
  PBase PStream PSection PWriter PDecoder PPatch POpMaker PEncode PMerge PMerge2 PMerge3 PMerge4 PTrans SpecVcd PVcdiff TEncode TMerge TTrans TVcdiff TPipe TTrunc.
Ltac Zify.zify_post_hook ::= idtac.
Arguments Z.add : simpl never.
Arguments Z.sub : simpl never.
Arguments Z.mul : simpl never.
Arguments Z.pow : simpl never.

(** What a computation that would write [fst w] and end with [snd w] does on a writer with room for [room] bytes: if the bytes fit, nothing is different; if not, the bytes that
    fit are there and the writer's error is returned. *)
Definition into_room {A} (w : W A) (room : Z) : list Z * Z * option (res A) :=
  if zlen (fst w) <=? room then (fst w, room - zlen (fst w), Some (snd w)) else (take room (fst w), 0, None).
Definition cuts {A} (w : W A) (f : FW A) : Prop := forall room, 0 <= room -> f room = into_room w room.

Lemma cuts_put bs : cuts (wput bs) (fput bs).
Proof. intros room H. reflexivity. Qed.
Lemma cuts_lift {A} (r : res A) : cuts (wlift r) (flift r).
Proof. intros room H. unfold flift, into_room, wlift. cbn [fst snd]. rewrite (@zlen_nil Z). destruct (Z.leb_spec 0 room); [|lia]. f_equal. f_equal. lia. Qed.
Lemma cuts_bind {A B} (w : W A) (f : FW A) (g : A -> W B) (h : A -> FW B) : cuts w f -> (forall a, cuts (g a) (h a)) -> cuts (wbind w g) (fbind f h).
Proof.
  intros Hw Hg room Hr. unfold fbind. rewrite (Hw room Hr). unfold into_room at 1. destruct w as [o r]. cbn [fst snd]. destruct (Z.leb_spec (zlen o) room) as [Hl|Hl].
  - destruct r as [a|e| |]; cbn [wbind]; unfold into_room; cbn [fst snd]; try (destruct (Z.leb_spec (zlen o) room); [reflexivity|lia]).
    rewrite (Hg a) by lia. unfold into_room. destruct (g a) as [o' r']. cbn [fst snd]. rewrite zlen_app.
    destruct (Z.leb_spec (zlen o') (room - zlen o)), (Z.leb_spec (zlen o + zlen o') room); try lia.
    + f_equal. f_equal. lia.
    + f_equal. f_equal. rewrite take_app_r by lia. reflexivity.
  - assert (E : forall r, zlen o > room -> into_room (A := B) (o, r) room = (take room o, 0, None)).
    { intros r0 _. unfold into_room. cbn [fst]. destruct (Z.leb_spec (zlen o) room); [lia|reflexivity]. }
    destruct r as [a|e| |]; cbn [wbind]; try (rewrite E by lia; reflexivity). destruct (g a) as [o' r']. unfold into_room. cbn [fst]. rewrite zlen_app. pose proof (zlen_nonneg o').
    destruct (Z.leb_spec (zlen o + zlen o') room); [lia|]. rewrite take_app_l by lia. reflexivity.
Qed.

Ltac cuts_go := repeat first [apply cuts_lift | apply cuts_put | (apply cuts_bind; [|intros ?]) | assumption
  | match goal with |- cuts (match ?x with _ => _ end) _ => destruct x end ].
Lemma cuts_u_varint n : cuts (write_u_varint n) (f_write_u_varint n).
Proof. unfold write_u_varint, f_write_u_varint. cuts_go. Qed.
Lemma cuts_header m h : cuts (write_section_header m h) (f_write_section_header m h).
Proof. unfold write_section_header, f_write_section_header, write_u8, f_write_u8. cuts_go; try apply cuts_u_varint. Qed.
Lemma cuts_op_byte o : cuts (write_op_byte_and_size o) (f_write_op_byte_and_size o).
Proof. unfold write_op_byte_and_size, f_write_op_byte_and_size, write_u8, f_write_u8, write_u16, f_write_u16. cuts_go. Qed.
Lemma cuts_op_addtl m o d a : cuts (write_op_addtl m o d a) (f_write_op_addtl m o d a).
Proof. unfold write_op_addtl, f_write_op_addtl, write_u8, f_write_u8, write_i_varint, f_write_i_varint. cuts_go; apply cuts_u_varint. Qed.
Lemma cuts_ops_loop m f : forall ops d a t w l, cuts (write_ops_loop m f ops d a t w l) (f_write_ops_loop m f ops d a t w l).
Proof.
  induction ops as [|o ops IH]; intros d a t w l; cbn [write_ops_loop f_write_ops_loop]; [apply cuts_lift|]. apply cuts_bind; [apply cuts_op_byte|intros _].
  destruct f, o; try apply IH; (apply cuts_bind; [apply cuts_op_addtl|intros ?; apply IH]).
Qed.
Lemma cuts_ops m ops h : cuts (write_ops m ops h) (f_write_ops m ops h).
Proof.
  unfold write_ops, f_write_ops. destruct (h_osize h >? MAX_WIN_SIZE); [apply cuts_lift|]. destruct (negb (zlen ops =? h_nops h)); [apply cuts_lift|].
  apply cuts_bind; [apply cuts_ops_loop|intros [[t w] l]]. cuts_go.
Qed.
Lemma cuts_plain m ops h : cuts (plain_writer m ops h) (f_plain_writer m ops h).
Proof. unfold plain_writer, f_plain_writer. apply cuts_bind; [apply cuts_header|intros _; apply cuts_ops]. Qed.

(** A section writer that starts with an empty buffer and leaves an empty buffer when it succeeds. *)
Definition cuts_b (w : W unit) (f : list Z -> FB) : Prop := forall room, 0 <= room ->
  fst (f [] room) = into_room w room /\ (forall o k x, fst (f [] room) = (o, k, Some (Ok x)) -> snd (f [] room) = []).
Lemma into_room_bind {A B} (w : W A) (g : A -> W B) room : 0 <= room ->
  into_room (wbind w g) room =
  match into_room w room with
  | (o, k, Some (Ok a)) => let '(o', k', r) := into_room (g a) k in (o ++ o', k', r)
  | (o, k, Some (Err e)) => (o, k, Some (Err e))
  | (o, k, Some Panic) => (o, k, Some Panic)
  | (o, k, Some Diverge) => (o, k, Some Diverge)
  | (o, k, None) => (o, k, None)
  end.
Proof.
  intro H. symmetry. rewrite <- (cuts_bind w (into_room w) g (fun a => into_room (g a))); [reflexivity| | |exact H].
  - intros r Hr. reflexivity.
  - intros a r Hr. reflexivity.
Qed.
Lemma into_room_left {A} (w : W A) room o k r : 0 <= room -> into_room w room = (o, k, r) -> 0 <= k.
Proof. unfold into_room. intros H. destruct (Z.leb_spec (zlen (fst w)) room); intro E; injection E as <- <- <-; lia. Qed.
Lemma into_room_lift {A} (r : res A) room : 0 <= room -> into_room (wlift r) room = ([], room, Some r).
Proof. intro H. symmetry. exact (cuts_lift r room H). Qed.

Lemma cuts_all_sections wr fr f : (forall ops h, cuts_b (wr ops h) (fr ops h)) -> forall secs, cuts (write_all_sections wr f secs) (f_write_all_sections fr f secs []).
Proof.
  intro Hw. induction secs as [|[ops h] secs IH]; intros room Hr; cbn [write_all_sections f_write_all_sections]; [symmetry; apply into_room_lift; exact Hr|].
  rewrite into_room_bind by exact Hr. destruct (Hw ops (set_format h f) room Hr) as [E1 E2]. destruct (fr ops (set_format h f) [] room) as [x buf]. cbn [fst snd] in *.
  rewrite <- E1. destruct x as [[o k] [[u|e| |]|]]; try reflexivity. rewrite (E2 _ _ _ eq_refl). pose proof (into_room_left _ _ _ _ _ Hr (eq_sym E1)) as Hk.
  rewrite (IH k Hk). reflexivity.
Qed.
Lemma cuts_sections m wr fr f src trgt : (forall ops h, cuts_b (wr ops h) (fr ops h)) -> forall secs cur, cuts (write_sections m wr f src trgt cur secs) (f_write_sections m fr f src trgt cur secs []).
Proof.
  intro Hw. induction secs as [|[ops h] secs IH]; intros cur room Hr; cbn [write_sections f_write_sections]; [symmetry; apply into_room_lift; exact Hr|].
  rewrite into_room_bind by exact Hr. rewrite into_room_lift by exact Hr.
  destruct (match m with Debug => do b <- check_ops src trgt cur ops; assert_ b | Release => Ok tt end) as [u|e| |]; try reflexivity.
  rewrite into_room_bind by exact Hr. destruct (Hw ops (set_format h f) room Hr) as [E1 E2]. destruct (fr ops (set_format h f) [] room) as [x buf]. cbn [fst snd] in *.
  rewrite <- E1. destruct x as [[o k] [[u'|e| |]|]]; try reflexivity. rewrite (E2 _ _ _ eq_refl). pose proof (into_room_left _ _ _ _ _ Hr (eq_sym E1)) as Hk.
  rewrite (IH _ k Hk). destruct (into_room (write_sections m wr f src trgt (cur + h_osize (set_format h f)) secs) k) as [[o' k'] r']. reflexivity.
Qed.
Lemma cuts_encode_with m wr fr ic f seg src trgt : (forall ops h, cuts_b (wr ops h) (fr ops h)) -> cuts (encode_with m wr ic f seg src trgt) (f_encode_with m fr ic f seg src trgt).
Proof.
  intro Hw. unfold encode_with, f_encode_with. apply cuts_bind; [apply cuts_lift|intro c]. apply cuts_bind; [apply cuts_lift|intro ops]. apply cuts_sections. exact Hw.
Qed.
Lemma cuts_nocomp m c data : cuts (encode_nocomp m c data) (f_encode_nocomp m c data).
Proof. unfold encode_nocomp, f_encode_nocomp. apply cuts_encode_with. intros ops h room Hr. cbn [fst snd]. split; [apply cuts_plain; exact Hr|reflexivity]. Qed.
Definition comp_of (m : mode) (cd : codecs) (comp : sec_comp) (buf : list Z) : W unit :=
  match comp with SmdiffComp c => encode_nocomp m c buf | ZstdComp level => wput (zstd_enc cd level buf) | BrotliComp options => wput (brotli_enc cd options buf) end.
Lemma cuts_comp m cd comp buf : cuts (comp_of m cd comp buf) (match comp with SmdiffComp c => f_encode_nocomp m c buf | ZstdComp level => fput (zstd_enc cd level buf) | BrotliComp options => fput (brotli_enc cd options buf) end).
Proof. destruct comp; [apply cuts_nocomp|apply cuts_put|apply cuts_put]. Qed.
Lemma cuts_section_writer m cd sc ops h : cuts_b (section_writer m cd sc ops h) (f_section_writer m cd sc ops h).
Proof.
  intros room Hr. unfold f_section_writer, section_writer. destruct sc as [comp|]; cbn zeta; [|cbn [fst snd]; split; [apply cuts_plain; exact Hr|reflexivity]].
  rewrite (cuts_header m _ room Hr). rewrite into_room_bind by exact Hr. destruct (into_room (write_section_header m (set_comp h (algo_value comp))) room) as [[o k] [[u|e| |]|]] eqn:E;
    try (cbn [fst snd]; split; [reflexivity|intros ? ? ? X; discriminate X]).
  pose proof (into_room_left _ _ _ _ _ Hr E) as Hk. destruct (write_ops m ops (set_comp h (algo_value comp))) as [b r]. rewrite into_room_bind by exact Hk. rewrite into_room_lift by exact Hk.
  destruct r as [u'|e| |]; try (cbn [fst snd app]; split; [now rewrite app_nil_r|intros ? ? ? X; discriminate X]).
  fold (comp_of m cd comp b). cbn [app].
  assert (Ec : match comp with SmdiffComp c => f_encode_nocomp m c b k | ZstdComp level => fput (zstd_enc cd level b) k | BrotliComp options => fput (brotli_enc cd options b) k end = into_room (comp_of m cd comp b) k).
  { rewrite <- (cuts_comp m cd comp b k Hk). destruct comp; reflexivity. }
  rewrite Ec. destruct (into_room (comp_of m cd comp b) k) as [[o' k'] r'] eqn:E'. cbn [fst snd]. split; [reflexivity|]. intros o1 k1 x X. injection X as _ _ ->. reflexivity.
Qed.
Lemma cuts_v_write m s more : cuts (v_write m s more) (f_v_write m s more).
Proof. unfold v_write, f_v_write. apply cuts_bind; [apply cuts_header|intros _; apply cuts_ops]. Qed.
Lemma cuts_v_room m s n : cuts (v_room m s n) (f_v_room m s n).
Proof. unfold v_room, f_v_room. apply cuts_bind; [apply cuts_lift|intro k]. destruct (k >? MAX_WIN_SIZE); [|apply cuts_lift]. apply cuts_bind; [apply cuts_v_write|intros _; apply cuts_lift]. Qed.
Lemma cuts_v_push m s o n k : cuts (v_push m s o n k) (f_v_push m s o n k).
Proof. unfold v_push, f_v_push. cuts_go. Qed.
Lemma cuts_v_advance m s n : cuts (v_advance m s n) (f_v_advance m s n).
Proof. unfold v_advance, f_v_advance. cuts_go. Qed.
Lemma cuts_v_adds m : forall fuel s rem data, cuts (v_adds m fuel s rem data) (f_v_adds m fuel s rem data).
Proof.
  induction fuel as [|k IH]; intros s rem data; cbn [v_adds f_v_adds]; destruct (rem <=? 0); try apply cuts_lift. apply cuts_bind; [apply cuts_v_room|intro s1]. apply cuts_bind; [apply cuts_lift|intros [b d]].
  apply cuts_bind; [apply cuts_v_push|intro s2]. apply IH.
Qed.
Lemma cuts_v_runs m : forall fuel s rem b, cuts (v_runs m fuel s rem b) (f_v_runs m fuel s rem b).
Proof.
  induction fuel as [|k IH]; intros s rem b; cbn [v_runs f_v_runs]; destruct (rem <=? 0); try apply cuts_lift. apply cuts_bind; [apply cuts_v_room|intro s1]. apply cuts_bind; [apply cuts_lift|intros _].
  apply cuts_bind; [apply cuts_v_push|intro s2]. apply IH.
Qed.
Lemma cuts_v_seq m : forall fuel s rem src a l, cuts (v_seq m fuel s rem src a l) (f_v_seq m fuel s rem src a l).
Proof.
  induction fuel as [|k IH]; intros s rem src a l; cbn [v_seq f_v_seq]; destruct (rem <=? 0); try apply cuts_lift. apply cuts_bind; [apply cuts_v_room|intro s1].
  apply cuts_bind; [apply cuts_v_push|intro s2]. apply IH.
Qed.
Lemma cuts_v_copies m : forall fuel s rem src a, cuts (v_copies m fuel s rem src a) (f_v_copies m fuel s rem src a).
Proof.
  induction fuel as [|k IH]; intros s rem src a; cbn [v_copies f_v_copies]; destruct (rem <=? 0); try apply cuts_lift. apply cuts_bind; [apply cuts_v_room|intro s1].
  apply cuts_bind; [apply cuts_v_push|intro s2]. apply cuts_bind; [apply cuts_lift|intro a2]. apply IH.
Qed.
Lemma cuts_v_inst m s i : cuts (v_inst m s i) (f_v_inst m s i).
Proof.
  destruct i as [len data|len b|t u lu lo]; cbn [v_inst f_v_inst].
  - apply cuts_bind; [apply cuts_v_adds|intro; apply cuts_v_advance].
  - apply cuts_bind; [apply cuts_v_runs|intro; apply cuts_v_advance].
  - destruct t as [|st|sl].
    + destruct (v_ssp s) as [ssp|]; [|apply cuts_lift]. apply cuts_bind; [apply cuts_lift|intro a]. apply cuts_bind; [apply cuts_v_copies|intro; apply cuts_v_advance].
    + apply cuts_bind; [apply cuts_lift|intro a]. apply cuts_bind; [apply cuts_lift|intro a2]. apply cuts_bind; [apply cuts_v_copies|intro; apply cuts_v_advance].
    + apply cuts_bind; [apply cuts_lift|intro a]. apply cuts_bind; [apply cuts_lift|intro a2]. apply cuts_bind; [apply cuts_v_seq|intro; apply cuts_v_advance].
Qed.
Lemma cuts_v_loop m : forall msgs s, cuts (v_loop m s msgs) (f_v_loop m s msgs).
Proof.
  induction msgs as [|x msgs IH]; intro s; cbn [v_loop f_v_loop]; [apply cuts_lift|]. destruct x as [ssp sss t|i1 i2| |]; try apply IH; [|apply cuts_lift].
  apply cuts_bind; [apply cuts_v_inst|intro s1]. apply cuts_bind; [destruct i2; [apply cuts_v_inst|apply cuts_lift]|intro s2]. apply IH.
Qed.

(** C84. Every function that writes, with every input and setting, on a writer that has room for any number of bytes: if what the function writes fits, the failing writer makes no difference;
    if not, exactly the bytes that fit have been written and the writer's error is returned. No failure is swallowed, no panic replaces it, nothing is written after it. *)
Theorem C84_failing_writer : forall m cd room, 0 <= room ->
  (forall h, f_write_section_header m h room = into_room (write_section_header m h) room) /\
  (forall ops h, f_write_ops m ops h room = into_room (write_ops m ops h) room) /\
  (forall sc ops h, fst (f_section_writer m cd sc ops h [] room) = into_room (section_writer m cd sc ops h) room) /\
  (forall c dict trgt, f_encode m cd c dict trgt room = into_room (encode m cd c dict trgt) room) /\
  (forall ops w f sc, f_summary_write m cd ops w f sc room = into_room (summary_write m cd ops w f sc) room) /\
  (forall p f sc seg, f_transcode m cd p f sc seg room = into_room (transcode m cd p f sc seg) room) /\
  (forall msgs, f_convert_vcdiff m msgs room = into_room (convert_vcdiff m msgs) room).
Proof.
  intros m cd room Hr. split; [|split; [|split; [|split; [|split; [|split]]]]]; intros.
  - apply cuts_header. exact Hr.
  - apply cuts_ops. exact Hr.
  - exact (proj1 (cuts_section_writer m cd sc ops h room Hr)).
  - unfold f_encode, encode. apply (cuts_encode_with m (section_writer m cd (cf_comp c)) (f_section_writer m cd (cf_comp c))); [|exact Hr]. intros. apply cuts_section_writer.
  - unfold f_summary_write, summary_write. apply (cuts_all_sections (section_writer m cd sc) (f_section_writer m cd sc)); [|exact Hr]. intros. apply cuts_section_writer.
  - unfold f_transcode, transcode. apply cuts_bind; [apply cuts_lift| |exact Hr]. intro l. apply cuts_bind; [apply cuts_lift|]. intro ops.
    apply cuts_all_sections. intros. apply cuts_section_writer.
  - unfold f_convert_vcdiff, convert_vcdiff. apply cuts_bind; [apply cuts_v_loop| |exact Hr]. intro s. apply cuts_v_write.
Qed.

(** [last_step cd src out p f]: [f] is the run of a tool that, on a healthy writer, makes the patch [p] from [src] to [out] (the same cases as [made] in TPipe.v). *)
Inductive last_step (cd : codecs) (src out : list Z) : list Z -> FW unit -> Prop :=
| ls_encode m c p : comp_lossless cd (cf_comp c) out -> Forall is_byte out -> zlen out < 2 ^ 63 -> zlen src < 2 ^ 63 ->
    encode m cd c (Some src) out = (p, Ok tt) -> last_step cd src out p (f_encode m cd c (Some src) out)
| ls_transcode m q f sc seg p : made cd q src out -> comp_lossless cd sc out -> transcode m cd q f sc seg = (p, Ok tt) -> last_step cd src out p (f_transcode m cd q f sc seg)
| ls_vcdiff m msgs p : vcdiff_of src msgs out -> zlen src < 2 ^ 63 -> zlen out < 2 ^ 63 -> existsb long_seq (all_insts msgs) = false ->
    convert_vcdiff m msgs = (p, Ok tt) -> last_step cd src out p (f_convert_vcdiff m msgs)
| ls_merge m newest older r seg f sc p : made_chain cd src (newest :: older) out -> merge_from m cd newest older = Ok r -> comp_lossless cd sc out ->
    summary_write m cd (summary_of r) seg f sc = (p, Ok tt) -> last_step cd src out p (f_summary_write m cd (summary_of r) seg f sc).
Lemma last_step_made cd src out p f : last_step cd src out p f -> made cd p src out /\ forall room, 0 <= room -> f room = into_room (p, Ok tt) room.
Proof.
  intros [m c p' H1 H2 H3 H4 E|m q f' sc seg p' H1 H2 E|m msgs p' H1 H2 H3 H4 E|m nw od r seg f' sc p' H1 H2 H3 E]; split; try (intros room Hr; pose proof (C84_failing_writer m cd room Hr) as (_ & _ & _ & He & Hs & Ht & Hv); rewrite <- E; auto).
  - exact (made_encode cd m c src out p' H1 H2 H3 H4 E).
  - exact (made_transcode cd m q f' sc seg src out p' H1 H2 E).
  - exact (made_vcdiff cd m src msgs out p' H1 H2 H3 H4 E).
  - exact (made_merge cd m nw od src out r seg f' sc p' H1 H2 H3 E).
Qed.
(** C84. The disk is full while a tool writes a patch: the tool reports the error, and what is on the disk is never taken for a patch afterwards. With enough room the patch is
    complete and the tool reports success: success is reported exactly when the whole patch has been written. *)
Theorem C84_disk_full_is_detected : forall cd src out p f room m, last_step cd src out p f -> codecs_cut cd -> 0 <= room ->
  (zlen p <= room -> f room = (p, room - zlen p, Some (Ok tt))) /\
  (room < zlen p -> exists o, f room = (o, 0, None) /\ zlen o = room /\ (exists rest, p = o ++ rest) /\
    (forall d s, snd (apply_patch m cd o (Some d) s) <> Ok tt) /\
    (forall g, merger_new m cd o <> Ok g) /\
    (forall g g', merger_merge m cd g o <> Ok g') /\
    (forall f sc seg, snd (transcode m cd o f sc seg) <> Ok tt)).
Proof.
  intros cd src out p f room m H Hcd Hr. destruct (last_step_made _ _ _ _ _ H) as [Hm Hf]. rewrite (Hf room Hr). unfold into_room. cbn [fst snd]. split; intro Hl.
  - destruct (Z.leb_spec (zlen p) room); [reflexivity|lia].
  - destruct (Z.leb_spec (zlen p) room); [lia|]. exists (take room p). split; [reflexivity|]. split; [apply zlen_take; lia|]. split; [exists (drop room p); symmetry; apply take_drop|].
    assert (Hne : drop room p <> []). { intro X. assert (Y : zlen (drop room p) = 0) by now rewrite X. rewrite zlen_drop in Y; lia. }
    destruct (C78_interrupted_write_is_detected m cd p src out (take room p) (drop room p) Hcd Hm (eq_sym (take_drop room p)) Hne) as (A & B & C & D).
    split; [exact A|]. split; [exact B|]. split; [exact C|]. intros f0 sc seg. exact (proj2 (D f0 sc seg)).
Qed.

(** C85. The scratch buffer of section_writer, exactly. Without secondary compression it is neither read nor changed. With it, what it holds is compressed in front of the section's own
    operations; it is emptied when the call succeeds and only then. *)
Theorem C85_scratch_buffer : forall m cd ops h buf room, 0 <= room ->
  f_section_writer m cd None ops h buf room = (into_room (section_writer m cd None ops h) room, buf) /\
  forall comp, let h' := set_comp h (algo_value comp) in
    fst (f_section_writer m cd (Some comp) ops h buf room) = into_room
      (dow _ <- write_section_header m h'; dow _ <- wlift (snd (write_ops m ops h')); 
       let data := buf ++ fst (write_ops m ops h') in
       match comp with SmdiffComp c => encode_nocomp m c data | ZstdComp level => wput (zstd_enc cd level data) | BrotliComp options => wput (brotli_enc cd options data) end) room /\
    (snd (fst (f_section_writer m cd (Some comp) ops h buf room)) = Some (Ok tt) -> snd (f_section_writer m cd (Some comp) ops h buf room) = []) /\
    (snd (fst (f_section_writer m cd (Some comp) ops h buf room)) <> Some (Ok tt) -> 
       snd (f_section_writer m cd (Some comp) ops h buf room) = buf \/ snd (f_section_writer m cd (Some comp) ops h buf room) = buf ++ fst (write_ops m ops h')).
Proof.
  intros m cd ops h buf room Hr. split.
  - unfold f_section_writer, section_writer. rewrite (cuts_plain m ops h room Hr). reflexivity.
  - intro comp. cbn zeta. unfold f_section_writer. cbn zeta. rewrite (cuts_header m _ room Hr). rewrite into_room_bind by exact Hr.
    destruct (into_room (write_section_header m (set_comp h (algo_value comp))) room) as [[o k] [[u|e| |]|]] eqn:E;
      try (cbn [fst snd]; split; [reflexivity|split; [discriminate|intros _; left; reflexivity]]).
    pose proof (into_room_left _ _ _ _ _ Hr E) as Hk. destruct (write_ops m ops (set_comp h (algo_value comp))) as [b r]. cbn [fst snd]. rewrite into_room_bind by exact Hk. rewrite into_room_lift by exact Hk.
    destruct r as [u'|e| |]; try (cbn [fst snd app]; rewrite ?app_nil_r; split; [reflexivity|split; [discriminate|intros _; right; reflexivity]]).
    fold (comp_of m cd comp (buf ++ b)).
    assert (Ec : match comp with SmdiffComp c => f_encode_nocomp m c (buf ++ b) k | ZstdComp level => fput (zstd_enc cd level (buf ++ b)) k | BrotliComp options => fput (brotli_enc cd options (buf ++ b)) k end = into_room (comp_of m cd comp (buf ++ b)) k).
    { rewrite <- (cuts_comp m cd comp (buf ++ b) k Hk). destruct comp; reflexivity. }
    rewrite Ec. destruct (into_room (comp_of m cd comp (buf ++ b)) k) as [[o' k'] r'] eqn:E'. cbn [fst snd app]. split; [reflexivity|]. split.
    + intros ->. reflexivity.
    + intro Hn. right. destruct r' as [[[]|e| |]|]; try reflexivity. now elim Hn.
Qed.
(** C85, "a failed call of section_writer does not affect later calls", is false: a section is to be compressed and the disk is full; the error is reported. Then another section is written to
    another file with the same buffer: success is reported, and the file is read as the first section. *)
Definition c85_a : list op := [Add [65; 65; 65]].
Definition c85_b : list op := [Add [66; 66; 66]].
Definition c85_h : header := mkHeader 0 Interleaved false 1 3 3.
Theorem C85_refuted : ~ (forall m cd comp opsA opsB h room1 room2 buf o1 k1 o2 k2, comp_lossless cd (Some comp) opsB -> codecs_cut cd ->
  f_section_writer m cd (Some comp) opsA h [] room1 = ((o1, k1, None), buf) ->
  fst (f_section_writer m cd (Some comp) opsB h buf room2) = (o2, k2, Some (Ok tt)) ->
  fst (f_section_writer m cd (Some comp) opsB h [] room2) = (o2, k2, Some (Ok tt)) \/ forall d s, apply_patch m cd o2 d s = apply_patch m cd (fst (section_writer m cd (Some comp) opsB h)) d s).
Proof.
  intro H. assert (Hcut : codecs_cut no_codecs) by (split; apply stream_is_cut; apply no_codecs_stream).
  specialize (H Debug no_codecs (SmdiffComp (mkTC 10 1 None)) c85_a c85_b c85_h 5 100).
  assert (E1 : exists buf o1 k1, f_section_writer Debug no_codecs (Some (SmdiffComp (mkTC 10 1 None))) c85_a c85_h [] 5 = ((o1, k1, None), buf)) by (do 3 eexists; vm_compute; reflexivity).
  destruct E1 as (buf & o1 & k1 & E1).
  assert (E2 : exists o2 k2, fst (f_section_writer Debug no_codecs (Some (SmdiffComp (mkTC 10 1 None))) c85_b c85_h buf 100) = (o2, k2, Some (Ok tt)) /\
     snd (apply_patch Debug no_codecs o2 None (mkSink [] 0)) = Ok tt /\ sbuf (fst (apply_patch Debug no_codecs o2 None (mkSink [] 0))) = [65; 65; 65]).
  { vm_compute in E1. injection E1 as <- <- <-. do 2 eexists. split; [vm_compute; reflexivity|]. vm_compute. split; reflexivity. }
  destruct E2 as (o2 & k2 & E2 & E3 & E4). destruct (H buf o1 k1 o2 k2 I Hcut E1 E2) as [X|X].
  - vm_compute in E1. injection E1 as <- <- <-. rewrite <- E2 in X. vm_compute in X. discriminate X.
  - rewrite (X None (mkSink [] 0)) in E4. vm_compute in E4. discriminate E4.
Qed.
Example C84_example : last_step no_codecs [] [1; 2; 3; 4] [0; 1; 4; 132; 1; 2; 3; 4] (f_encode Release no_codecs c78_cfg (Some []) [1; 2; 3; 4]) /\
  f_encode Release no_codecs c78_cfg (Some []) [1; 2; 3; 4] 5 = ([0; 1; 4; 132; 1], 0, None) /\
  f_encode Release no_codecs c78_cfg (Some []) [1; 2; 3; 4] 8 = ([0; 1; 4; 132; 1; 2; 3; 4], 0, Some (Ok tt)).
Proof.
  split; [|split; vm_compute; reflexivity]. apply ls_encode; [exact I|repeat constructor; unfold is_byte; lia|reflexivity|reflexivity|vm_compute; reflexivity].
Qed.
Example C85_example : exists room o k, 0 <= room /\ f_section_writer Debug toy (Some (ZstdComp 3)) c85_a c85_h [9] room = ((o, k, Some (Ok tt)), []) /\ o = [16; 1; 3; 40; 181; 1; 9; 1; 131; 1; 65; 1; 65; 1; 65; 0].
Proof. exists 20. do 2 eexists. split; [lia|]. split; vm_compute; reflexivity. Qed.
Print Assumptions C84_failing_writer.
Print Assumptions C84_disk_full_is_detected.
Print Assumptions C85_scratch_buffer.
Print Assumptions C85_refuted.
