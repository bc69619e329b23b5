(** Property C120: what into_inner of the section iterators gives back. *)
From Verif Require Import Base Spec SpecEnc MCommon MWriter MReader MDecoder MIter MOpMaker MTrgtMatcher MSrcMatcher MEncInner MEncode MPos MInner SpecApi
  PBase PStream PPos TEncode TMerge TTrunc TIter TPos.
Ltac Zify.zify_post_hook ::= idtac.
Arguments Z.add : simpl never.
Arguments Z.sub : simpl never.
Arguments Z.mul : simpl never.
Arguments Z.pow : simpl never.

(** [left] is what lies behind the first [n] sections of [bs] (behind the last one, if there are fewer). *)
Inductive behind (next : next_t) : list Z -> nat -> list Z -> Prop :=
| bh_none bs : behind next bs 0 bs
| bh_last bs n ops h r : next bs = Ok (ops, h, r) -> h_more h = false -> behind next bs (S n) r
| bh_more bs n ops h r left : next bs = Ok (ops, h, r) -> h_more h = true -> behind next r n left -> behind next bs (S n) left.

Lemma pi_finished m cd : forall cs b, history (pi_next m cd) cs (mkPI b true) = Ok (repeat None (length cs), mkPI b true).
Proof. induction cs as [|c cs IH]; intro b; [reflexivity|]. cbn [history]. unfold pi_next at 1. cbn [pi_done bind]. rewrite IH. reflexivity. Qed.
Lemma di_finished m cd : forall cs it, di_done it = true -> history (di_next m cd) cs it = Ok (repeat None (length cs), it).
Proof. induction cs as [|c cs IH]; intros it H; [reflexivity|]. cbn [history]. unfold di_next at 1. rewrite H. cbn [bind]. rewrite (IH it H). reflexivity. Qed.
Lemma ri_finished m : forall cs it, ri_done it = true -> history (ri_next m) cs it = Ok (repeat None (length cs), it).
Proof. induction cs as [|c cs IH]; intros it H; [reflexivity|]. cbn [history]. unfold ri_next at 1. rewrite H. cbn [bind]. rewrite (IH it H). reflexivity. Qed.

Lemma pi_history m cd (Hcd : codecs_rest cd) : forall cs b win buf left, binv b -> behind (next_section m cd) (b_ahead b) (length cs) left ->
  exists l d b' it', history (pi_next m cd) cs (mkPI b false) = Ok (l, mkPI b' d) /\ history (di_next m cd) cs (mkDI (b_ahead b) false win buf) = Ok (l, it') /\ bok b b' left.
Proof.
  induction cs as [|c cs IH]; intros b win buf left Hb H; cbn [length] in H.
  - inversion H; subst. exists [], false, b, (mkDI (b_ahead b) false win buf). split; [reflexivity|]. split; [reflexivity|]. apply bok_refl. exact Hb.
  - cbn [history]. unfold pi_next at 1. cbn [pi_done pi_source]. pose proof (sim_next m cd Hcd b Hb) as L. pose proof (di_next_spec m cd c (b_ahead b) win buf) as D.
    inversion H as [|? ? ops h r E Em|? ? ops h r left' E Em Hr]; subst; rewrite E in L, D; destruct L as (b1 & E1 & K1); destruct D as (win' & buf' & E2); rewrite E1, E2; cbn [bind]; rewrite Em; cbn [negb].
    + rewrite pi_finished, di_finished by reflexivity. cbn [bind]. do 4 eexists. split; [reflexivity|]. split; [reflexivity|]. exact K1.
    + pose proof (proj1 K1) as Ea. rewrite <- Ea in Hr. destruct (IH b1 win' buf' left (bok_inv _ _ _ K1) Hr) as (l & d & b2 & it' & H1 & H2 & K2). rewrite Ea in H2. rewrite H1, H2. cbn [bind].
      do 4 eexists. split; [reflexivity|]. split; [reflexivity|]. exact (bok_trans _ _ _ _ _ K1 K2).
Qed.

(** C120. The decoder's iterator, over a reader that stands anywhere: after any calls that succeed it has given the sections of the bytes in front of the reader; the reader into_inner gives back is the one it was made from, standing
    where it stood if there was no call, and else somewhere between the end of the sections given and 8192 bytes behind it - at its very end, if at most 8192 bytes lay in front of it at the start. *)
Theorem C120_decoder_into_inner : forall m cd, codecs_rest cd -> forall r cs left, 0 <= rpos r <= zlen (rbuf r) -> behind (next_section m cd) (ahead r) (length cs) left ->
  exists l it it', history (pi_next m cd) cs (pi_new r) = Ok (l, it) /\ history (di_next m cd) cs (di_new (ahead r)) = Ok (l, it') /\
    rbuf (pi_into_inner it) = rbuf r /\
    (cs = [] -> pi_into_inner it = r) /\
    zlen (rbuf r) - zlen left <= rpos (pi_into_inner it) <= Z.min (zlen (rbuf r)) (zlen (rbuf r) - zlen left + 8192) /\
    (cs <> [] -> zlen (ahead r) <= 8192 -> rpos (pi_into_inner it) = zlen (rbuf r)).
Proof.
  intros m cd Hcd r cs left Hp H. pose proof (binv_start r Hp) as Hb.
  destruct (pi_history m cd Hcd cs (mkB [] r) [] [] left Hb H) as (l & d & b & it' & H1 & H2 & K).
  exists l, (mkPI b d), it'. split; [exact H1|]. split; [exact H2|]. destruct K as (Ka & [Kc Kp] & Kr & _). unfold pi_into_inner. cbn [pi_source b_in] in *.
  split; [exact Kr|]. split; [intros ->; cbn [history] in H1; injection H1 as <- <- <-; reflexivity|].
  pose proof (zlen_ahead (b_in b) Kp) as Ez. pose proof (f_equal zlen Ka) as Kz. unfold b_ahead in Kz. rewrite zlen_app in Kz. rewrite Kr in *. unfold BUF_CAP in Kc. pose proof (zlen_nonneg (b_buf b)).
  split; [lia|]. intros Hc Hz. destruct cs as [|c cs]; [congruence|].
  assert (X : exhausted b).
  { cbn [history] in H1. unfold pi_next at 1 in H1. cbn [pi_new pi_done pi_source] in H1. pose proof (sim_next m cd Hcd _ Hb) as L. cbn [length] in H.
    assert (E : exists ops h r1, next_section m cd (b_ahead (mkB [] r)) = Ok (ops, h, r1) /\ (h_more h = true -> behind (next_section m cd) r1 (length cs) left)).
    { inversion H as [|? ? ops h r1 E Em|? ? ops h r1 left' E Em Hr]; subst; exists ops, h; eexists; (split; [exact E|]); [congruence|auto]. }
    destruct E as (ops & h & r1 & E & Hm). rewrite E in L. destruct L as (b1 & E1 & K1). rewrite E1 in H1. cbn [bind] in H1. pose proof (first_section m cd r _ b1 Hcd Hz Hp E1) as X1.
    destruct (h_more h) eqn:Em; cbn [negb] in H1.
    - specialize (Hm eq_refl). rewrite <- (proj1 K1) in Hm. destruct (pi_history m cd Hcd cs b1 [] [] left (bok_inv _ _ _ K1) Hm) as (l2 & d2 & b2 & it2 & G1 & _ & K2). rewrite G1 in H1. cbn [bind] in H1. injection H1 as _ <- _. apply K2. exact X1.
    - rewrite pi_finished in H1. cbn [bind] in H1. injection H1 as _ <- _. exact X1. }
  unfold exhausted in X. rewrite X in Ez. rewrite (@zlen_nil Z) in Ez. lia.
Qed.

(** C120. smdiff-reader's iterator reads nothing ahead: into_inner gives exactly what lies behind the sections given. *)
Theorem C120_reader_into_inner : forall m bytes cs left, behind (read_section m) bytes (length cs) left ->
  exists l it, history (ri_next m) cs (ri_new bytes) = Ok (l, it) /\ ri_into_inner it = left.
Proof.
  intros m. assert (G : forall cs bytes buf left, behind (read_section m) bytes (length cs) left -> exists l it, history (ri_next m) cs (mkRI bytes false buf) = Ok (l, it) /\ ri_into_inner it = left).
  { induction cs as [|c cs IH]; intros bytes buf left H; cbn [length] in H.
    - inversion H; subst. do 2 eexists. split; reflexivity.
    - cbn [history]. pose proof (ri_next_spec m c bytes buf) as D.
      inversion H as [|? ? ops h r E Em|? ? ops h r left' E Em Hr]; subst; rewrite E in D; destruct D as (buf' & E2); rewrite E2; cbn [bind]; rewrite Em; cbn [negb].
      + rewrite ri_finished by reflexivity. cbn [bind]. do 2 eexists. split; reflexivity.
      + destruct (IH r buf' left Hr) as (l & it & H1 & H2). rewrite H1. cbn [bind]. do 2 eexists. split; [reflexivity|exact H2]. }
  intros bytes cs left H. exact (G cs bytes [] left H).
Qed.

(** C120, "the reader that into_inner gives back stands behind the sections read", is false of the decoder's iterator: after the first of two sections the second can no longer be read from it. *)
Theorem C120_refuted : ~ (forall m cd, codecs_rest cd -> forall r cs left l it, behind (next_section m cd) (ahead r) (length cs) left ->
  history (pi_next m cd) cs (pi_new r) = Ok (l, it) -> ahead (pi_into_inner it) = left).
Proof.
  intro H. specialize (H Debug no_codecs no_codecs_rest (mkRdr [128; 1; 2; 130; 5; 6; 0; 1; 2; 130; 7; 8] 0) [Owned] [0; 1; 2; 130; 7; 8]).
  specialize (H [Some ([Add [5; 6]], mkHeader 0 Interleaved true 1 0 2)]).
  assert (E : exists it, history (pi_next Debug no_codecs) [Owned] (pi_new (mkRdr [128; 1; 2; 130; 5; 6; 0; 1; 2; 130; 7; 8] 0)) = Ok ([Some ([Add [5; 6]], mkHeader 0 Interleaved true 1 0 2)], it) /\ ahead (pi_into_inner it) = [])
    by (eexists; split; [vm_compute; reflexivity|vm_compute; reflexivity]).
  destruct E as (it & E & Ea). rewrite (H it) in Ea; [discriminate Ea| |exact E].
  eapply bh_more; [vm_compute; reflexivity|reflexivity|apply bh_none].
Qed.

(** The two sections, a reader that does not stand at its start, and a byte behind: what each iterator leaves after one and after three calls. *)
Example C120_example : forall m,
  let p := [128; 1; 2; 130; 5; 6; 0; 1; 2; 130; 7; 8; 99] in
  behind (read_section m) p 1 (drop 6 p) /\ behind (read_section m) p 3 [99] /\ behind (next_section m no_codecs) (ahead (mkRdr (1 :: p) 1)) 3 [99] /\
  (exists l it, history (ri_next m) [Owned; Borrowed; Owned] (ri_new p) = Ok (l, it) /\ ri_into_inner it = [99]) /\
  (exists l it, history (pi_next m no_codecs) [Owned; Borrowed; Owned] (pi_new (mkRdr (1 :: p) 1)) = Ok (l, it) /\ pi_into_inner it = mkRdr (1 :: p) 14).
Proof.
  intros [] p; (split; [eapply bh_more; [vm_compute; reflexivity|reflexivity|apply bh_none]|]);
    (split; [eapply bh_more; [vm_compute; reflexivity|reflexivity|eapply bh_last; [vm_compute; reflexivity|reflexivity]]|]);
    (split; [eapply bh_more; [vm_compute; reflexivity|reflexivity|eapply bh_last; [vm_compute; reflexivity|reflexivity]]|]);
    (split; do 2 eexists; (split; [vm_compute; reflexivity|reflexivity])).
Qed.
(** A longer file: the reader stops one buffer on. *)
Example C120_example_ahead : exists l it, history (pi_next Debug no_codecs) [Owned] (pi_new (mkRdr (c86_p ++ rep 1 10000) 0)) = Ok (l, it) /\ rpos (pi_into_inner it) = 8192.
Proof. do 2 eexists. split; vm_compute; reflexivity. Qed.

Print Assumptions C120_decoder_into_inner.
Print Assumptions C120_reader_into_inner.
Print Assumptions C120_refuted.
