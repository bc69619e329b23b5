(** Proofs about smdiff-vcdiff. *)
From Verif Require Import Base Spec MCommon MWriter MReader MDecoder MOpMaker MEncode MVcdiff SpecEnc SpecApi SpecVcd PBase PCommon PStream PSection PWriter PDecoder PPatch POpMaker PEncode.
Ltac Zify.zify_post_hook ::= idtac.
Arguments Z.add : simpl never.
Arguments Z.sub : simpl never.
Arguments Z.mul : simpl never.
Arguments Z.pow : simpl never.

Lemma wbind_assoc {A B C} (w : W A) (f : A -> W B) (g : B -> W C) : wbind (wbind w f) g = wbind w (fun x => wbind (f x) g).
Proof.
  destruct w as [o [a|e| |]]; try reflexivity. cbn [wbind]. destruct (f a) as [o1 [b|e| |]]; try reflexivity. cbn [wbind]. destruct (g b) as [o2 r]. now rewrite app_assoc.
Qed.
Lemma wbind_ext {A B} (w : W A) (f g : A -> W B) : (forall a, f a = g a) -> wbind w f = wbind w g.
Proof. intro H. destruct w as [o [a|e| |]]; try reflexivity. cbn [wbind]. now rewrite H. Qed.
Lemma wbind_id {A} (w : W A) : wbind w (fun a => wlift (Ok a)) = w.
Proof. destruct w as [o [a|e| |]]; try reflexivity. cbn. now rewrite app_nil_r. Qed.
Lemma wbind_ret {A B} (a : A) (f : A -> W B) : wbind (wlift (Ok a)) f = f a.
Proof. cbn. now destruct (f a). Qed.

Lemma wbind_pair {A B} o (a : A) (f : A -> W B) o2 r : f a = (o2, r) -> wbind (o, Ok a) f = (o ++ o2, r).
Proof. intro H. cbn [wbind]. now rewrite H. Qed.

(** ** The conversion as a list of pushes *)
Record core := mkC { c_win : list op; c_size : Z; c_nadd : Z }.
Definition mkv (c : core) (ssp : option Z) (t : bool) (p : Z) : vst := mkV (c_win c) ssp t p (c_size c) (c_nadd c).
Definition c_hdr (c : core) (more : bool) : header := mkHeader 0 Interleaved more (to_u32 (zlen (c_win c))) (c_nadd c) (c_size c).
Definition inc (o : op) (k : Z) : Z := if is_add o then k else 0.
Definition push1 (m : mode) (c : core) (o : op) (k : Z) : W core :=
  dow n <- wlift (arith m to_u32 (c_size c + k));
  dow c <- (if n >? MAX_WIN_SIZE then dow _ <- plain_writer m (c_win c) (c_hdr c true); wlift (Ok (mkC [] 0 0)) else wlift (Ok c));
  dow na <- wlift (arith m to_u32 (c_nadd c + inc o k));
  dow n <- wlift (arith m to_u32 (c_size c + k));
  wlift (Ok (mkC (c_win c ++ [o]) n na)).
Fixpoint pushes (m : mode) (c : core) (l : list (op * Z)) : W core :=
  match l with [] => wlift (Ok c) | (o, k) :: r => dow c <- push1 m c o k; pushes m c r end.
Lemma pushes_app m : forall a c b, pushes m c (a ++ b) = dow c' <- pushes m c a; pushes m c' b.
Proof.
  induction a as [|[o k] a IH]; intros c b; cbn [app pushes]; [now rewrite wbind_ret|]. rewrite wbind_assoc. apply wbind_ext. intro c'. apply IH.
Qed.
Lemma room_push {A B} m c ssp t p o k (r : res A) (a : A) (G : A -> vst -> W B) : r = Ok a ->
  (dow s <- v_room m (mkv c ssp t p) k; dow x <- wlift r; dow s <- v_push m s (o x) k (inc (o x) k); G x s) = dow c' <- push1 m c (o a) k; G a (mkv c' ssp t p).
Proof.
  intros ->. unfold v_room, push1, v_write, c_hdr. cbn [mkv v_win v_ssp v_trgt v_pos v_size v_nadd].
  destruct (arith m to_u32 (c_size c + k)) as [n|e| |] eqn:E1; try reflexivity. rewrite !wbind_ret.
  assert (T : forall c0, (dow s <- v_push m (mkv c0 ssp t p) (o a) k (inc (o a) k); G a s) =
    dow c' <- (dow na <- wlift (arith m to_u32 (c_nadd c0 + inc (o a) k)); dow n <- wlift (arith m to_u32 (c_size c0 + k)); wlift (Ok (mkC (c_win c0 ++ [o a]) n na))); G a (mkv c' ssp t p)).
  { intro c0. unfold v_push. cbn [mkv v_win v_ssp v_trgt v_pos v_size v_nadd]. destruct (arith m to_u32 (c_nadd c0 + inc (o a) k)) as [na|e| |]; try reflexivity. rewrite !wbind_ret.
    destruct (arith m to_u32 (c_size c0 + k)) as [n2|e| |]; reflexivity. }
  destruct (n >? MAX_WIN_SIZE).
  - fold (plain_writer m (c_win c) (mkHeader 0 Interleaved true (to_u32 (zlen (c_win c))) (c_nadd c) (c_size c))).
    rewrite !wbind_assoc. apply wbind_ext. intros []. rewrite !wbind_ret. exact (T (mkC [] 0 0)).
  - rewrite !wbind_ret. exact (T c).
Qed.
Lemma room_push0 {B} m c ssp t p o k (G : vst -> W B) :
  (dow s <- v_room m (mkv c ssp t p) k; dow s <- v_push m s o k (inc o k); G s) = dow c' <- push1 m c o k; G (mkv c' ssp t p).
Proof.
  rewrite <- (room_push m c ssp t p (fun _ => o) k (Ok tt) tt (fun _ => G) eq_refl). apply wbind_ext. intro s. now rewrite wbind_ret.
Qed.
Definition sized (ops : list op) : list (op * Z) := map (fun o => (o, op_len o)) ops.
Lemma v_adds_is m ssp t p : forall fuel c rem data, 0 <= rem <= Z.of_nat fuel -> rem <= zlen data -> exists ops, add_chunks fuel (take rem data) = Ok ops /\
  v_adds m fuel (mkv c ssp t p) rem data = dow c' <- pushes m c (sized ops); wlift (Ok (mkv c' ssp t p)).
Proof.
  induction fuel as [|k IH]; intros c rem data Hf Hd; cbn [add_chunks v_adds].
  - replace (rem <=? 0) with true by lia. rewrite take_0 by lia. exists []. split; [reflexivity|]. cbn [sized map pushes]. now rewrite wbind_ret.
  - rewrite zlen_take by lia. destruct (rem <=? 0) eqn:E.
    + replace (rem =? 0) with true by lia. exists []. split; [reflexivity|]. cbn [sized map pushes]. now rewrite wbind_ret.
    + replace (rem =? 0) with false by lia. unfold MAX_INST_SIZE. set (n := Z.min rem 65535). assert (Hn : 1 <= n <= rem) by (unfold n; lia).
      destruct (IH c (rem - n) (drop n data)) as (ops & E1 & _); [lia|rewrite zlen_drop; lia|].
      assert (Et : take n (take rem data) = take n data) by (unfold take; rewrite firstn_firstn; f_equal; lia).
      assert (Ed : drop n (take rem data) = take (rem - n) (drop n data)).
      { unfold take, drop. rewrite skipn_firstn_comm. f_equal. lia. }
      exists (Add (take n data) :: ops). rewrite Ed, E1, Et. split; [reflexivity|].
      assert (Er : read_exact n data = Ok (take n data, drop n data)) by (unfold read_exact; replace (n <=? zlen data) with true by lia; reflexivity).
      pose proof (room_push m c ssp t p (fun x => Add (fst x)) n (read_exact n data) _ (fun x s => v_adds m k s (rem - n) (snd x)) Er) as RP. cbn [fst snd] in RP.
      transitivity (dow c' <- push1 m c (Add (take n data)) n; v_adds m k (mkv c' ssp t p) (rem - n) (drop n data)).
      { rewrite <- RP. apply wbind_ext. intro s. rewrite Er, !wbind_ret. reflexivity. }
      cbn [sized map pushes op_len]. rewrite zlen_take by lia. rewrite wbind_assoc. apply wbind_ext. intro c'.
      destruct (IH c' (rem - n) (drop n data) ltac:(lia) ltac:(rewrite zlen_drop; lia)) as (ops' & E1' & E2). rewrite E1 in E1'. injection E1' as <-. exact E2.
Qed.
Lemma v_runs_is m ssp t p byte : forall fuel c rem, 0 <= rem <= Z.of_nat fuel -> exists ops, run_chunks fuel byte rem = Ok ops /\
  v_runs m fuel (mkv c ssp t p) rem byte = dow c' <- pushes m c (sized ops); wlift (Ok (mkv c' ssp t p)).
Proof.
  induction fuel as [|k IH]; intros c rem Hf; cbn [run_chunks v_runs].
  - replace (rem <=? 0) with true by lia. exists []. split; [reflexivity|]. cbn [sized map pushes]. now rewrite wbind_ret.
  - destruct (rem <=? 0) eqn:E.
    + exists []. split; [reflexivity|]. cbn [sized map pushes]. now rewrite wbind_ret.
    + unfold MAX_RUN_LEN. rewrite (Z.min_comm rem 62). set (n := Z.min 62 rem). assert (Hn : 1 <= n <= rem /\ n <= 62) by (unfold n; lia).
      destruct (IH c (rem - n) ltac:(lia)) as (ops & E1 & _). exists (Run byte (to_u8 n) :: ops). rewrite E1. split; [reflexivity|].
      transitivity (dow c' <- push1 m c (Run byte (to_u8 n)) n; v_runs m k (mkv c' ssp t p) (rem - n) byte).
      { rewrite <- (room_push0 m c ssp t p _ n (fun s => v_runs m k s (rem - n) byte)). apply wbind_ext. intro s. replace (n <=? 62) with true by lia. cbn [assert_]. now rewrite wbind_ret. }
      cbn [sized map pushes op_len]. rewrite to_u8_id by lia. rewrite wbind_assoc. apply wbind_ext. intro c'.
      destruct (IH c' (rem - n) ltac:(lia)) as (ops' & E1' & E2). rewrite E1 in E1'. injection E1' as <-. exact E2.
Qed.
Lemma v_copies_is m ssp t p src : forall fuel c rem addr, 0 <= rem <= Z.of_nat fuel -> 0 <= addr -> addr + rem < 2 ^ 64 -> exists ops, copy_chunks fuel src addr rem = Ok ops /\
  v_copies m fuel (mkv c ssp t p) rem src addr = dow c' <- pushes m c (sized ops); wlift (Ok (mkv c' ssp t p)).
Proof.
  induction fuel as [|k IH]; intros c rem addr Hf Ha Hlt; cbn [copy_chunks v_copies].
  - replace (rem <=? 0) with true by lia. exists []. split; [reflexivity|]. cbn [sized map pushes]. now rewrite wbind_ret.
  - destruct (rem <=? 0) eqn:E.
    + exists []. split; [reflexivity|]. cbn [sized map pushes]. now rewrite wbind_ret.
    + unfold MAX_INST_SIZE. set (n := Z.min 65535 rem). assert (Hn : 1 <= n <= rem /\ n <= 65535) by (unfold n; lia).
      destruct (IH c (rem - n) (addr + n) ltac:(lia) ltac:(lia) ltac:(lia)) as (ops & E1 & _). exists (Copy src addr (to_u16 n) :: ops). rewrite E1. split; [reflexivity|].
      assert (Ea : arith m to_u64 (addr + n) = Ok (addr + n)) by (unfold arith; rewrite to_u64_id by lia; now rewrite Z.eqb_refl).
      transitivity (dow c' <- push1 m c (Copy src addr (to_u16 n)) n; v_copies m k (mkv c' ssp t p) (rem - n) src (addr + n)).
      { rewrite <- (room_push0 m c ssp t p _ n (fun s => v_copies m k s (rem - n) src (addr + n))). apply wbind_ext. intro s. apply wbind_ext. intro s'. now rewrite Ea, wbind_ret. }
      cbn [sized map pushes op_len]. rewrite to_u16_id by lia. rewrite wbind_assoc. apply wbind_ext. intro c'.
      destruct (IH c' (rem - n) (addr + n) ltac:(lia) ltac:(lia) ltac:(lia)) as (ops' & E1' & E2). rewrite E1 in E1'. injection E1' as <-. exact E2.
Qed.
Fixpoint seq_l (fuel : nat) (addr rem sl : Z) : list (op * Z) :=
  if rem <=? 0 then [] else match fuel with O => [] | S k => let n := Z.min rem sl in (Copy Output addr (to_u16 n), n) :: seq_l k addr (rem - n) sl end.
Lemma v_seq_is m ssp t p addr sl : 1 <= sl -> forall fuel c rem, 0 <= rem <= Z.of_nat fuel ->
  v_seq m fuel (mkv c ssp t p) rem Output addr sl = dow c' <- pushes m c (seq_l fuel addr rem sl); wlift (Ok (mkv c' ssp t p)).
Proof.
  intro Hsl. induction fuel as [|k IH]; intros c rem Hf; cbn [v_seq seq_l].
  - replace (rem <=? 0) with true by lia. cbn [pushes]. now rewrite wbind_ret.
  - destruct (rem <=? 0) eqn:E; [cbn [pushes]; now rewrite wbind_ret|]. set (n := Z.min rem sl). assert (Hn : 1 <= n <= rem) by (unfold n; lia).
    transitivity (dow c' <- push1 m c (Copy Output addr (to_u16 n)) n; v_seq m k (mkv c' ssp t p) (rem - n) Output addr sl); [apply (room_push0 m c ssp t p (Copy Output addr (to_u16 n)) n (fun s => v_seq m k s (rem - n) Output addr sl))|].
    cbn [pushes]. rewrite wbind_assoc. apply wbind_ext. intro c'. apply IH. lia.
Qed.

(** ** Copying byte by byte *)
Lemma grow_add : forall a u p b, grow u p (a + b) = grow (grow u p a) (p + Z.of_nat a) b.
Proof.
  induction a as [|a IH]; intros u p b; cbn [Nat.add grow]; [f_equal; lia|]. rewrite IH. f_equal. lia.
Qed.
Lemma grow_inside : forall n u p, 0 <= p -> p + Z.of_nat n <= zlen u -> grow u p n = u ++ sub u p (Z.of_nat n).
Proof.
  induction n as [|n IH]; intros u p Hp Hl; cbn [grow]; [rewrite sub_0 by lia; now rewrite app_nil_r|].
  rewrite IH; [|lia|rewrite zlen_app; pose proof (zlen_nonneg (sub u p 1)); lia]. rewrite sub_app_l by lia.
  rewrite <- app_assoc. f_equal. rewrite (sub_split u p (Z.of_nat (S n)) 1) by lia. f_equal. f_equal; lia.
Qed.
(** What lies before the window does not matter. *)
Lemma grow_shift : forall n seg base win p, zlen seg <= p < zlen seg + zlen win -> exists bs, zlen bs = Z.of_nat n /\ grow (seg ++ win) p n = (seg ++ win) ++ bs /\
  grow (base ++ win) (p - zlen seg + zlen base) n = (base ++ win) ++ bs.
Proof.
  induction n as [|n IH]; intros seg base win p Hp; cbn [grow]; [exists []; rewrite !app_nil_r; auto|].
  pose proof (zlen_nonneg seg). pose proof (zlen_nonneg base).
  assert (E1 : sub (seg ++ win) p 1 = sub win (p - zlen seg) 1) by (unfold sub; now rewrite drop_app_r by lia).
  assert (E2 : sub (base ++ win) (p - zlen seg + zlen base) 1 = sub win (p - zlen seg) 1) by (unfold sub; rewrite drop_app_r by lia; do 2 f_equal; lia).
  set (x := sub win (p - zlen seg) 1) in *. assert (Lx : zlen x = 1) by (unfold x; apply zlen_sub; lia).
  destruct (IH seg base (win ++ x) (p + 1)) as (bs & L & A & B); [rewrite zlen_app; lia|].
  exists (x ++ bs). rewrite E1, E2, zlen_app. split; [lia|]. rewrite !app_assoc in *. split; [exact A|]. rewrite <- B. f_equal. lia.
Qed.
(** A sequence: every chunk repeats the same slice. *)
Lemma seq_makes src addr sl : 1 <= sl -> 0 <= addr -> addr + sl < 2 ^ 64 -> forall fuel rem out, 0 <= rem <= Z.of_nat fuel -> rem <= 65535 \/ sl <= 65535 ->
  addr + sl <= zlen out -> sub out (zlen out - sl) sl = sub out addr sl -> exists bs, makes src out (map fst (seq_l fuel addr rem sl)) bs /\ zlen bs = rem /\
  grow out (zlen out - sl) (Z.to_nat rem) = out ++ bs /\ Forall (fun x => op_len (fst x) = snd x) (seq_l fuel addr rem sl).
Proof.
  intros Hsl Ha H64. assert (G0 : forall rem out, rem <= 0 -> 0 <= rem -> exists bs, makes src out [] bs /\ zlen bs = rem /\ grow out (zlen out - sl) (Z.to_nat rem) = out ++ bs /\ Forall (fun x : op * Z => op_len (fst x) = snd x) []).
  { intros rem out Hr Hr0. exists []. split; [apply makes_nil|]. replace (Z.to_nat rem) with O by lia. cbn [grow]. rewrite app_nil_r. split; [unfold zlen; cbn; lia|auto]. }
  induction fuel as [|k IH]; intros rem out Hf Hs Hl Hper; cbn [seq_l]; (destruct (rem <=? 0) eqn:E; [apply G0; lia|]); [lia|]. cbn [map fst snd].
  set (n := Z.min rem sl). assert (Hn : 1 <= n <= rem /\ n <= sl /\ (n = rem \/ n = sl) /\ n <= 65535) by (unfold n; lia). rewrite to_u16_id by lia.
  set (b := sub out addr n). assert (Lb : zlen b = n) by (unfold b; apply zlen_sub; lia).
  assert (Eb : sub out (zlen out - sl) n = b).
  { unfold b. replace (sub out (zlen out - sl) n) with (take n (sub out (zlen out - sl) sl)); [rewrite Hper|]; unfold sub, take; rewrite firstn_firstn; f_equal; lia. }
  assert (Eg : forall r, n <= r -> grow out (zlen out - sl) (Z.to_nat r) = grow (out ++ b) (zlen (out ++ b) - sl) (Z.to_nat (r - n))).
  { intros r Hr. replace (Z.to_nat r) with (Z.to_nat n + Z.to_nat (r - n))%nat by lia. rewrite grow_add. rewrite (grow_inside (Z.to_nat n) out (zlen out - sl)) by lia.
    replace (Z.of_nat (Z.to_nat n)) with n by lia. rewrite Eb, zlen_app, Lb. f_equal. lia. }
  assert (Hb : exists bs, makes src (out ++ b) (map fst (seq_l k addr (rem - n) sl)) bs /\ zlen bs = rem - n /\
    grow (out ++ b) (zlen (out ++ b) - sl) (Z.to_nat (rem - n)) = (out ++ b) ++ bs /\ Forall (fun x => op_len (fst x) = snd x) (seq_l k addr (rem - n) sl)).
  { destruct (Z.eq_dec n rem) as [->|Hne].
    - replace (rem - rem) with 0 by lia. destruct k; cbn [seq_l]; (replace (0 <=? 0) with true by lia); cbn [map]; apply G0; lia.
    - assert (n = sl) by lia. apply IH; [lia|lia|rewrite zlen_app; lia|]. rewrite zlen_app, Lb. replace (zlen out + n - sl) with (zlen out) by lia.
      rewrite (sub_app_l out b addr sl) by lia. replace (sub (out ++ b) (zlen out) sl) with b by (unfold sub; rewrite drop_app by reflexivity; symmetry; apply take_all; lia).
      unfold b. now f_equal. }
  destruct Hb as (bs & M & L & Gb & F). exists (b ++ bs). split; [|split; [rewrite zlen_app; lia|split]].
  - apply makes_cons; [|cbn [op_bytes]; rewrite in_range_true by lia; reflexivity|exact M]. unfold op_good, op_ok. cbn. lia.
  - rewrite Eg by lia. rewrite Gb. now rewrite <- app_assoc.
  - constructor; [reflexivity|exact F].
Qed.

(** ** One instruction *)
Definition addr_lt (B : Z) (o : op) : Prop := match o with Copy _ a _ => 0 <= a < B | _ => True end.
Definition ok1 (x : op * Z) : Prop := op_ok (fst x) /\ addr_lt (2 ^ 63) (fst x) /\ 1 <= snd x /\ op_len (fst x) <= snd x /\ (is_add (fst x) = true -> op_len (fst x) = snd x).
Definition exact1 (x : op * Z) : Prop := op_len (fst x) = snd x.
Definition sizes (l : list (op * Z)) : Z := fold_right (fun x s => snd x + s) 0 l.
Lemma sizes_app a b : sizes (a ++ b) = sizes a + sizes b.
Proof. unfold sizes. induction a as [|x a IH]; cbn [app fold_right]; [lia|]. rewrite IH. lia. Qed.
Lemma makes_len src out ops bs : makes src out ops bs -> ops_len ops = zlen bs.
Proof.
  intros [Hg Hr]. pose proof (run_ops_len _ _ _ _ (ops_ok_nonneg _ (good_ok _ Hg)) Hr) as L. rewrite zlen_app in L. lia.
Qed.
Lemma sized_ok src out ops bs : makes src out ops bs -> zlen src < 2 ^ 63 -> zlen out + zlen bs < 2 ^ 63 -> Forall ok1 (sized ops) /\ sizes (sized ops) = zlen bs /\ Forall exact1 (sized ops) /\ map fst (sized ops) = ops.
Proof.
  intros M Hs Ho. pose proof M as [Hg Hr].
  assert (A : addrs_lt (2 ^ 63) ops) by (apply (run_ops_addrs src (2 ^ 63) ltac:(lia) ops out (out ++ bs) Hr Hg); rewrite zlen_app; lia).
  split; [|split; [|split]].
  - unfold sized. rewrite Forall_map. unfold addrs_lt in A. rewrite Forall_forall in *. intros x Hx. destruct (Hg x Hx) as [H1 H2]. specialize (A x Hx).
    unfold ok1. cbn [fst snd]. split; [exact H1|]. split; [exact A|]. split; [exact H2|]. split; [lia|reflexivity].
  - rewrite <- (makes_len _ _ _ _ M). unfold sizes, sized, ops_len. clear. induction ops as [|x ops IH]; [reflexivity|]. cbn [map fold_right fst snd]. now rewrite IH.
  - unfold sized. rewrite Forall_map. apply Forall_forall. intros x _. reflexivity.
  - unfold sized. rewrite map_map. cbn [fst]. apply map_id.
Qed.
Lemma sized_exact L : Forall exact1 L -> sized (map fst L) = L.
Proof. unfold sized, exact1. induction 1 as [|[o k] L H _ IH]; [reflexivity|]. cbn [map fst snd] in *. now rewrite IH, H. Qed.
Lemma seq_l_ok addr sl : 1 <= sl -> 0 <= addr < 2 ^ 63 -> forall fuel rem, 0 <= rem <= Z.of_nat fuel -> Forall ok1 (seq_l fuel addr rem sl) /\ sizes (seq_l fuel addr rem sl) = rem /\
  (65535 < rem -> 65535 < sl -> Exists (fun x => op_len (fst x) < snd x) (seq_l fuel addr rem sl)).
Proof.
  intros Hsl Ha. induction fuel as [|k IH]; intros rem Hf; cbn [seq_l].
  - replace (rem <=? 0) with true by lia. split; [constructor|]. split; [cbn; lia|lia].
  - destruct (rem <=? 0) eqn:E; [split; [constructor|]; split; [cbn; lia|lia]|]. set (n := Z.min rem sl). assert (Hn : 1 <= n <= rem) by (unfold n; lia).
    destruct (IH (rem - n) ltac:(lia)) as (I1 & I2 & _). pose proof (Z.mod_pos_bound n (2 ^ 16) ltac:(lia)). pose proof (Z.mod_le n (2 ^ 16) ltac:(lia) ltac:(lia)).
    split; [|split].
    + constructor; [|exact I1]. unfold ok1, op_ok, to_u16. cbn [fst snd op_typed op_legal addr_lt op_len is_add]. repeat split; try lia; discriminate.
    + unfold sizes in *. cbn [fold_right snd]. lia.
    + intros H1 H2. constructor. cbn [fst snd op_len]. unfold to_u16. assert (65535 < n) by (unfold n; lia). lia.
Qed.
Definition seg_at (src base seg : list Z) (ssp : option Z) (t : bool) : Prop :=
  seg = [] \/ exists q, ssp = Some q /\ 0 <= q /\ q + zlen seg <= zlen (if t then base else src) /\ seg = sub (if t then base else src) q (zlen seg).
Lemma arith_u64_ok m v : 0 <= v < 2 ^ 64 -> arith m to_u64 v = Ok v.
Proof. intro H. unfold arith. rewrite to_u64_id by lia. now rewrite Z.eqb_refl. Qed.
Lemma arith_u32_ok m v : 0 <= v < 2 ^ 32 -> arith m to_u32 v = Ok v.
Proof. intro H. unfold arith. rewrite to_u32_id by lia. now rewrite Z.eqb_refl. Qed.
Lemma advance_is m c ssp t p n : 0 <= p + n < 2 ^ 64 -> v_advance m (mkv c ssp t p) n = wlift (Ok (mkv c ssp t (p + n))).
Proof. intro H. unfold v_advance. cbn [mkv v_pos v_win v_ssp v_trgt v_size v_nadd]. rewrite (arith_u64_ok m) by lia. now rewrite wbind_ret. Qed.
Lemma then_advance m c L ssp t p n : 0 <= p + n < 2 ^ 64 ->
  (dow s <- (dow c' <- pushes m c L; wlift (Ok (mkv c' ssp t p))); v_advance m s n) = dow c' <- pushes m c L; wlift (Ok (mkv c' ssp t (p + n))).
Proof. intro H. rewrite wbind_assoc. apply wbind_ext. intro c'. rewrite wbind_ret. now apply advance_is. Qed.
Lemma inst_spec m src base seg win ssp t i : zlen src < 2 ^ 63 -> seg_at src base seg ssp t -> vinst_ok (zlen seg) (zlen (seg ++ win)) i -> zlen (base ++ win) + vlen i < 2 ^ 63 ->
  exists L bs, (forall c, v_inst m (mkv c ssp t (zlen (base ++ win))) i = dow c' <- pushes m c L; wlift (Ok (mkv c' ssp t (zlen (base ++ win ++ bs))))) /\
    vstep (seg ++ win) i = (seg ++ win) ++ bs /\ zlen bs = vlen i /\ Forall ok1 L /\ sizes L = vlen i /\
    (long_seq i = false -> makes src (base ++ win) (map fst L) bs /\ Forall exact1 L) /\
    (long_seq i = true -> Exists (fun x => op_len (fst x) < snd x) L).
Proof.
  intros Hs Hseg Hi Hlen. set (out := base ++ win) in *. pose proof (zlen_nonneg out) as Hout. pose proof (zlen_nonneg seg). pose proof (zlen_nonneg win). pose proof (zlen_nonneg base).
  assert (Eout : zlen out = zlen base + zlen win) by (unfold out; apply zlen_app).
  assert (G : forall ops bs, makes src out ops bs -> vstep (seg ++ win) i = (seg ++ win) ++ bs -> zlen bs = vlen i -> long_seq i = false ->
     (forall c, v_inst m (mkv c ssp t (zlen out)) i = dow c' <- pushes m c (sized ops); wlift (Ok (mkv c' ssp t (zlen out + vlen i)))) ->
     exists L bs, (forall c, v_inst m (mkv c ssp t (zlen out)) i = dow c' <- pushes m c L; wlift (Ok (mkv c' ssp t (zlen (base ++ win ++ bs))))) /\
    vstep (seg ++ win) i = (seg ++ win) ++ bs /\ zlen bs = vlen i /\ Forall ok1 L /\ sizes L = vlen i /\
    (long_seq i = false -> makes src out (map fst L) bs /\ Forall exact1 L) /\
    (long_seq i = true -> Exists (fun x => op_len (fst x) < snd x) L)).
  { intros ops bs M Ev El Hlong E. destruct (sized_ok src out ops bs M Hs ltac:(lia)) as (S1 & S2 & S3 & S4). exists (sized ops), bs.
    split; [intro c; rewrite E; replace (zlen (base ++ win ++ bs)) with (zlen out + vlen i); [reflexivity|]; rewrite !zlen_app; lia|].
    split; [exact Ev|]. split; [exact El|]. split; [exact S1|]. split; [lia|]. split; [intros _; rewrite S4; auto|intro; congruence]. }
  destruct i as [n data|n b|ty p nu no]; cbn [vinst_ok] in Hi.
  - destruct Hi as (Hn & Hd & Hb). unfold is_u32 in Hn. cbn [vlen] in *.
    destruct (add_chunks_ok src (Z.to_nat n) (take n data) out) as (ops & E1' & M & _); [assert (Hz := zlen_take n data ltac:(lia)); unfold zlen in Hz; lia|now apply Forall_take|].
    apply (G ops (take n data) M); [reflexivity|apply zlen_take; lia|reflexivity|].
    intro c. destruct (v_adds_is m ssp t (zlen out) (Z.to_nat n) c n data ltac:(lia) Hd) as (ops2 & E1 & E2). rewrite E1' in E1. injection E1 as <-. cbn [v_inst]. rewrite E2. apply then_advance. lia.
  - destruct Hi as (Hn & Hb). unfold is_u32 in Hn. cbn [vlen] in *.
    destruct (run_chunks_ok src b Hb (Z.to_nat n) n out ltac:(lia)) as (ops & E1' & M & _).
    apply (G ops (rep b n) M); [reflexivity|rewrite zlen_rep; cbn; lia|reflexivity|].
    intro c. destruct (v_runs_is m ssp t (zlen out) b (Z.to_nat n) c n ltac:(lia)) as (ops2 & E1 & E2). rewrite E1' in E1. injection E1 as <-. cbn [v_inst]. rewrite E2. apply then_advance. lia.
  - destruct ty as [|start|n].
    + destruct Hi as (-> & Hn & Hp & Hpn). unfold is_u32 in Hn. cbn [vlen] in *. destruct Hseg as [->|(q & -> & Hq & Hql & Eseg)]; [cbn in Hp; lia|].
      set (s := if t then Output else Dict). assert (Efs : from_src s src out = if t then out else src) by (destruct t; reflexivity).
      assert (Lbase : zlen (if t then base else src) <= zlen (from_src s src out)) by (rewrite Efs; destruct t; lia).
      assert (Lb63 : zlen (if t then base else src) < 2 ^ 63) by (destruct t; lia).
      destruct (copy_chunks_ok src s (Z.to_nat nu) (q + p) nu out ltac:(lia) ltac:(lia) ltac:(lia) ltac:(lia) ltac:(lia)) as (ops & E1' & M & _).
      apply (G ops _ M); [|apply zlen_sub; lia|reflexivity|].
      * cbn [vstep vlen]. rewrite grow_inside by (rewrite ?zlen_app; lia). f_equal. replace (Z.of_nat (Z.to_nat nu)) with nu by lia. rewrite sub_app_l by lia.
        rewrite Eseg. rewrite sub_sub by lia. rewrite Efs. destruct t; [|reflexivity]. unfold out. rewrite sub_app_l by lia. reflexivity.
      * intro c. destruct (v_copies_is m (Some q) t (zlen out) s (Z.to_nat nu) c nu (q + p) ltac:(lia) ltac:(lia) ltac:(lia)) as (ops2 & E1 & E2). rewrite E1' in E1. injection E1 as <-. change (v_inst m (mkv c (Some q) t (zlen out)) (VCopy CopyS p nu nu)) with (dow a <- wlift (arith m to_u64 (q + p)); dow s' <- v_copies m (Z.to_nat nu) (mkv c (Some q) t (zlen out)) nu s a; v_advance m s' nu).
        rewrite (arith_u64_ok m) by lia. rewrite wbind_ret, E2. apply then_advance. lia.
    + destruct Hi as (-> & Hn & -> & Hp & Hpn & H32). unfold is_u32 in *. cbn [vlen] in *. rewrite zlen_app in *.
      set (a := zlen out - (zlen seg + zlen win - p)).
      destruct (copy_chunks_ok src Output (Z.to_nat nu) a nu out ltac:(lia) ltac:(lia) ltac:(lia) ltac:(cbn [from_src]; lia) ltac:(lia)) as (ops & E1' & M & _).
      apply (G ops _ M); [|apply zlen_sub; cbn [from_src]; lia|reflexivity|].
      * cbn [vstep vlen from_src]. rewrite grow_inside by (rewrite ?zlen_app; lia). f_equal. replace (Z.of_nat (Z.to_nat nu)) with nu by lia.
        unfold sub. unfold out. rewrite !drop_app_r by (unfold a; lia). do 2 f_equal. unfold a. lia.
      * intro c. destruct (v_copies_is m ssp t (zlen out) Output (Z.to_nat nu) c nu a ltac:(lia) ltac:(lia) ltac:(lia)) as (ops2 & E1 & E2). rewrite E1' in E1. injection E1 as <-. cbn [v_inst]. rewrite (arith_u32_ok m) by lia. rewrite wbind_ret. cbn [mkv v_pos]. rewrite (arith_u64_ok m) by lia. rewrite wbind_ret. fold a. fold (mkv c ssp t (zlen out)). rewrite E2. apply then_advance. lia.
    + destruct Hi as (Hn & Hnu & Hp & Hsl). unfold is_u32 in *. cbn [vlen] in *. rewrite zlen_app in *. set (sl := nu - n) in *. set (a := zlen out - sl).
      assert (Ha : 0 <= a /\ 1 <= sl /\ sl <= zlen out) by lia.
      destruct (grow_shift (Z.to_nat n) seg base win p ltac:(lia)) as (bs & Lb & Gs & Go). fold out in Go.
      assert (E : forall c, v_inst m (mkv c ssp t (zlen out)) (VCopy (CopyQ n) p nu no) = (dow c' <- pushes m c (seq_l (Z.to_nat n) a n sl); wlift (Ok (mkv c' ssp t (zlen out + n))))).
      { intro c. cbn [v_inst]. rewrite (arith_u32_ok m) by lia. rewrite wbind_ret. cbn [mkv v_pos]. fold sl. rewrite (arith_u64_ok m) by lia. rewrite wbind_ret. fold a. fold (mkv c ssp t (zlen out)).
        rewrite v_seq_is by lia. apply then_advance. lia. }
      destruct (seq_l_ok a sl ltac:(lia) ltac:(lia) (Z.to_nat n) n ltac:(lia)) as (S1 & S2 & S3).
      exists (seq_l (Z.to_nat n) a n sl), bs. split; [intro c; rewrite E; replace (zlen (base ++ win ++ bs)) with (zlen out + n); [reflexivity|]; rewrite !zlen_app; lia|].
      split; [exact Gs|]. split; [lia|]. split; [exact S1|]. split; [exact S2|]. cbn [long_seq]. fold sl. split.
      * intro Hlong. destruct (seq_makes src a sl ltac:(lia) ltac:(lia) ltac:(lia) (Z.to_nat n) n out ltac:(lia)) as (bs' & M & L' & G' & F); [lia|lia|reflexivity|].
        replace (zlen out - sl) with (p - zlen seg + zlen base) in G' by lia. rewrite Go in G'. apply app_inv_head in G'. subst bs'. split; [exact M|exact F].
      * intro Hlong. apply S3; lia.
Qed.

(** ** The stream *)
Lemma vstep_len seg win i : vinst_ok (zlen seg) (zlen (seg ++ win)) i -> 0 <= vlen i /\ exists bs, vstep (seg ++ win) i = (seg ++ win) ++ bs /\ zlen bs = vlen i.
Proof.
  intro Hi. pose proof (zlen_nonneg seg). pose proof (zlen_nonneg win). destruct i as [n data|n b|ty p nu no]; cbn [vinst_ok vlen vstep] in *; unfold is_u32 in *.
  - split; [lia|]. exists (take n data). split; [reflexivity|]. apply zlen_take. lia.
  - split; [lia|]. exists (rep b n). split; [reflexivity|]. rewrite zlen_rep. lia.
  - destruct ty as [|start|n]; rewrite ?zlen_app in Hi.
    + split; [lia|]. rewrite grow_inside by (rewrite ?zlen_app; lia). eexists. split; [reflexivity|]. rewrite zlen_sub; rewrite ?zlen_app; lia.
    + split; [lia|]. rewrite grow_inside by (rewrite ?zlen_app; lia). eexists. split; [reflexivity|]. rewrite zlen_sub; rewrite ?zlen_app; lia.
    + split; [lia|]. destruct (grow_shift (Z.to_nat n) seg [] win p ltac:(lia)) as (bs & L & G & _). exists bs. split; [exact G|lia].
Qed.
Lemma vsteps_grow seg : forall l win u', vsteps (zlen seg) (seg ++ win) l u' -> exists bs, u' = seg ++ win ++ bs.
Proof.
  induction l as [|i l IH]; intros win u' H; inversion H as [|? ? ? ? Hi Hr]; subst; [exists []; now rewrite app_nil_r|].
  destruct (vstep_len seg win i Hi) as (_ & bs & E & _). rewrite E, <- app_assoc in Hr. destruct (IH _ _ Hr) as (bs' & ->). exists (bs ++ bs'). now rewrite !app_assoc.
Qed.
Fixpoint v_list (m : mode) (s : vst) (l : list vinst) : W vst := match l with [] => wlift (Ok s) | i :: r => dow s <- v_inst m s i; v_list m s r end.
Lemma existsb_app_l {A} (f : A -> bool) a b : existsb f (a ++ b) = existsb f a || existsb f b.
Proof. apply existsb_app. Qed.
(** What a list of pushes must satisfy to describe instructions that append [bs] to [out]. *)
Definition pushes_for (src out : list Z) (long : bool) (L : list (op * Z)) (bs : list Z) : Prop :=
  Forall ok1 L /\ sizes L = zlen bs /\ (long = false -> makes src out (map fst L) bs /\ Forall exact1 L) /\ (long = true -> Exists (fun x => op_len (fst x) < snd x) L).
Lemma pushes_for_app src out l1 L1 b1 l2 L2 b2 : pushes_for src out l1 L1 b1 -> pushes_for src (out ++ b1) l2 L2 b2 -> pushes_for src out (l1 || l2) (L1 ++ L2) (b1 ++ b2).
Proof.
  intros (A1 & A2 & A3 & A4) (B1 & B2 & B3 & B4). split; [apply Forall_app; auto|]. split; [rewrite sizes_app, zlen_app; lia|]. split.
  - intro H. apply orb_false_iff in H as [H1 H2]. destruct (A3 H1), (B3 H2). rewrite map_app. split; [now apply makes_app|apply Forall_app; auto].
  - intro H. apply Exists_app. destruct l1; [left; auto|right; auto].
Qed.
Lemma pushes_for_nil src out : pushes_for src out false [] [].
Proof. split; [constructor|]. split; [reflexivity|]. split; [|discriminate]. intros _. split; [apply makes_nil|constructor]. Qed.
Lemma list_spec m src base seg ssp t : zlen src < 2 ^ 63 -> seg_at src base seg ssp t -> forall l win u', vsteps (zlen seg) (seg ++ win) l u' ->
  zlen base + zlen u' - zlen seg < 2 ^ 63 -> exists L bs, u' = seg ++ win ++ bs /\ pushes_for src (base ++ win) (existsb long_seq l) L bs /\
  forall c, v_list m (mkv c ssp t (zlen (base ++ win))) l = dow c' <- pushes m c L; wlift (Ok (mkv c' ssp t (zlen (base ++ win ++ bs)))).
Proof.
  intros Hs Hseg. induction l as [|i l IH]; intros win u' H Hlen; inversion H as [|? ? ? ? Hi Hr]; subst.
  - exists [], []. rewrite app_nil_r. split; [reflexivity|]. split; [apply pushes_for_nil|]. intro c. cbn [v_list pushes]. now rewrite wbind_ret.
  - destruct (vstep_len seg win i Hi) as (Hv & bs0 & E0 & L0). rewrite E0, <- app_assoc in Hr. destruct (vsteps_grow _ _ _ _ Hr) as (bsr & Eu).
    assert (Hb : zlen (base ++ win) + vlen i < 2 ^ 63) by (rewrite Eu in Hlen; rewrite !zlen_app in *; pose proof (zlen_nonneg bsr); lia).
    destruct (IH _ _ Hr Hlen) as (L2 & b2 & -> & P2 & E2).
    destruct (inst_spec m src base seg win ssp t i Hs Hseg Hi Hb) as (L1 & bs & E1 & V & Lb & O1 & Z1 & F1 & T1).
    assert (bs = bs0) by (rewrite E0 in V; now apply app_inv_head in V). subst bs. exists (L1 ++ L2), (bs0 ++ b2).
    split; [now rewrite !app_assoc|]. split; [cbn [existsb]; apply pushes_for_app; [split; [exact O1|split; [lia|auto]]|rewrite <- app_assoc; exact P2]|].
    intro c. cbn [v_list]. rewrite E1, pushes_app, !wbind_assoc. apply wbind_ext. intro c'. rewrite wbind_ret. rewrite E2. now rewrite <- !app_assoc.
Qed.
Definition cur_out (out : list Z) (w : vwhere) : list Z := match w with Between => out | Inside _ win => out ++ win end.
Lemma vstream_grow src : forall out w msgs out', vstream src out w msgs out' -> exists bs, out' = cur_out out w ++ bs.
Proof.
  intros out w msgs out' H. induction H; cbn [cur_out] in *; rewrite ?app_nil_r in *; try assumption.
  - exists []. now rewrite app_nil_r.
  - destruct (vsteps_grow _ _ _ _ H) as (b & E). apply app_inv_head in E. subst win'. destruct IHvstream as (bs & ->). exists (b ++ bs). now rewrite !app_assoc.
Qed.
Lemma v_loop_inst m s i1 i2 r : v_loop m s (VInst i1 i2 :: r) = dow s <- v_list m s (insts i1 i2); v_loop m s r.
Proof.
  cbn [v_loop]. destruct i2 as [i|]; cbn [insts v_list]; rewrite !wbind_assoc; apply wbind_ext; intro s1; rewrite ?wbind_assoc; [|reflexivity].
  apply wbind_ext. intro s2. now rewrite wbind_ret.
Qed.
Lemma stream_spec m src : zlen src < 2 ^ 63 -> forall out w msgs out', vstream src out w msgs out' -> zlen out' < 2 ^ 63 -> forall ssp t,
  match w with Between => t = false | Inside seg _ => seg_at src out seg ssp t end ->
  exists L bs, out' = cur_out out w ++ bs /\ pushes_for src (cur_out out w) (existsb long_seq (all_insts msgs)) L bs /\
  exists ssp' t' p', forall c, v_loop m (mkv c ssp t (zlen (cur_out out w))) msgs = dow c' <- pushes m c L; wlift (Ok (mkv c' ssp' t' p')).
Proof.
  intros Hs out w msgs out' H. induction H as [out rest|out msgs out' sss H IH|out msgs out' ssp0 sss H1 H2 H3 H IH|out msgs out' ssp0 sss H1 H2 H3 H IH|out seg win i1 i2 win' msgs out' Hst H IH|out seg win msgs out' H IH];
    intros Hl ssp t Hw; cbn [cur_out] in *.
  - exists [], []. rewrite app_nil_r. split; [reflexivity|]. split; [apply pushes_for_nil|]. exists ssp, t, (zlen out). intro c. cbn [v_loop pushes]. now rewrite wbind_ret.
  - subst t. destruct (IH Hl None false ltac:(now left)) as (L & bs & E & P & s' & t' & p' & Ev). rewrite app_nil_r in *. exists L, bs. split; [exact E|]. split; [exact P|]. exists s', t', p'. exact Ev.
  - subst t. destruct (IH Hl (Some ssp0) false) as (L & bs & E & P & s' & t' & p' & Ev).
    { right. exists ssp0. rewrite zlen_sub by lia. auto. }
    rewrite app_nil_r in *. exists L, bs. split; [exact E|]. split; [exact P|]. exists s', t', p'. exact Ev.
  - subst t. destruct (IH Hl (Some ssp0) true) as (L & bs & E & P & s' & t' & p' & Ev).
    { right. exists ssp0. rewrite zlen_sub by lia. auto. }
    rewrite app_nil_r in *. exists L, bs. split; [exact E|]. split; [exact P|]. exists s', t', p'. exact Ev.
  - destruct (vstream_grow _ _ _ _ _ H) as (bsr & Er). cbn [cur_out] in Er.
    destruct (list_spec m src out seg ssp t Hs Hw (insts i1 i2) win (seg ++ win') Hst) as (L1 & b1 & E1 & P1 & Ev1).
    { rewrite Er, !zlen_app in Hl. rewrite zlen_app. pose proof (zlen_nonneg bsr). lia. }
    apply app_inv_head in E1. subst win'.
    destruct (IH Hl ssp t Hw) as (L2 & b2 & E2 & P2 & s' & t' & p' & Ev2). exists (L1 ++ L2), (b1 ++ b2). split; [rewrite E2; now rewrite !app_assoc|].
    cbn [all_insts]. rewrite existsb_app. split; [apply pushes_for_app; [exact P1|rewrite <- app_assoc; exact P2]|]. exists s', t', p'. intro c.
    rewrite v_loop_inst, Ev1, pushes_app, !wbind_assoc. apply wbind_ext. intro c'. rewrite wbind_ret. apply Ev2.
  - destruct (IH Hl None false eq_refl) as (L & bs & E & P & s' & t' & p' & Ev). exists L, bs. split; [exact E|]. split; [exact P|]. exists s', t', p'. exact Ev.
Qed.
Lemma convert_spec m src msgs out : zlen src < 2 ^ 63 -> vcdiff_of src msgs out -> zlen out < 2 ^ 63 -> exists L, pushes_for src [] (existsb long_seq (all_insts msgs)) L out /\
  convert_vcdiff m msgs = dow c <- pushes m (mkC [] 0 0) L; plain_writer m (c_win c) (c_hdr c false).
Proof.
  intros Hs H Hl. destruct (stream_spec m src Hs _ _ _ _ H Hl None false eq_refl) as (L & bs & E & P & s' & t' & p' & Ev). cbn [cur_out app] in *. subst bs. exists L. split; [exact P|].
  unfold convert_vcdiff. change v_new with (mkv (mkC [] 0 0) None false (zlen (@nil Z))). rewrite Ev, wbind_assoc. apply wbind_ext. intro c. rewrite wbind_ret. reflexivity.
Qed.

(** ** Pushing *)
Definition cgood (c : core) : Prop := Forall op_good (c_win c) /\ addrs_lt (2 ^ 63) (c_win c) /\ c_size c = ops_len (c_win c) /\ c_size c <= max_win_size /\ c_nadd c = adds_len (c_win c).
Lemma cgood_in c more : cgood c -> sec_in Interleaved max_win_size (c_win c, c_hdr c more).
Proof.
  intros (Hg & Ha & Hz & Hm & Hn). pose proof (good_ok _ Hg) as Hok. pose proof (good_zlen _ Hg). pose proof (zlen_nonneg (c_win c)). pose proof (adds_len_bounds _ Hok).
  unfold max_win_size in *. assert (Et : to_u32 (zlen (c_win c)) = zlen (c_win c)) by (apply to_u32_id; lia).
  unfold sec_in, c_hdr. cbn [fst snd h_comp h_format h_osize]. split; [exact Hok|]. split; [apply (addrs_deltas (2 ^ 63)); [lia|exact Ha|lia|lia]|]. split; [reflexivity|]. split; [reflexivity|].
  split; [unfold header_typed; cbn [h_comp h_nops h_nadd h_osize]; lia|]. split; [|exact Hm]. unfold header_matches, max_win_size. cbn [h_comp h_nops h_nadd h_osize h_format].
  split; [lia|]. split; [lia|]. split; [lia|]. discriminate.
Qed.
Lemma cgood_write m c more : cgood c -> exists b, plain_writer m (c_win c) (c_hdr c more) = (b, Ok tt) /\ forall m' cd, sec_good (next_section m' cd) b (c_win c) (c_hdr c more).
Proof.
  intro Hc. apply (cgood_in c more) in Hc. destruct (sec_write Interleaved (c_win c) (c_hdr c more) 0 Hc ltac:(lia)) as (hb & ob & E1 & E2 & _). rewrite (set_comp_0 (c_hdr c more) eq_refl) in *.
  assert (E : plain_writer m (c_win c) (c_hdr c more) = (hb ++ ob, Ok tt)) by (unfold plain_writer; rewrite E1; cbn [wbind]; now rewrite E2).
  exists (hb ++ ob). split; [exact E|]. intros m' cd. destruct (plain_writer_good m m' Interleaved (c_win c) (c_hdr c more) _ Hc E) as [_ G]. rewrite (set_comp_0 (c_hdr c more) eq_refl) in G. apply G.
Qed.
Inductive pre_good (next : next_t) : list (list op * header) -> list Z -> Prop :=
| pg_nil : pre_good next [] []
| pg_cons ops h b secs bs : sec_good next b ops h -> h_more h = true -> pre_good next secs bs -> pre_good next ((ops, h) :: secs) (b ++ bs).
Lemma pre_last next secs bs ops h b : pre_good next secs bs -> sec_good next b ops h -> h_more h = false -> secs_good next (secs ++ [(ops, h)]) (bs ++ b).
Proof.
  induction 1 as [|ops0 h0 b0 secs bs Hg Hm _ IH]; intros Hs Hf; cbn [app]; [now apply sg_last|]. rewrite <- app_assoc. apply sg_more; auto.
Qed.
(** Sections as plain_writer wrote them. *)
Inductive pre_written (m : mode) : list (list op * header) -> list Z -> Prop :=
| pw_nil : pre_written m [] []
| pw_cons ops h b secs bs : sec_in Interleaved max_win_size (ops, h) -> plain_writer m ops h = (b, Ok tt) -> h_more h = true -> pre_written m secs bs -> pre_written m ((ops, h) :: secs) (b ++ bs).
Lemma pw_app m s1 b1 s2 b2 : pre_written m s1 b1 -> pre_written m s2 b2 -> pre_written m (s1 ++ s2) (b1 ++ b2).
Proof. induction 1 as [|ops0 h0 b0 secs bs Hi Hw Hm _ IH]; intro H; cbn [app]; [exact H|]. rewrite <- app_assoc. now apply pw_cons; auto. Qed.
Definition hdr_true (s : list op * header) : Prop := h_nops (snd s) = zlen (fst s) /\ h_osize (snd s) = ops_len (fst s) /\ ops_len (fst s) <= max_win_size /\ h_format (snd s) = Interleaved /\ h_comp (snd s) = 0.
Lemma cgood_hdr c more : cgood c -> hdr_true (c_win c, c_hdr c more).
Proof. intros (Hg & _ & Hz & Hm & _). pose proof (good_zlen _ Hg). pose proof (zlen_nonneg (c_win c)). unfold hdr_true, c_hdr, max_win_size in *. cbn [fst snd h_nops h_osize h_format h_comp]. rewrite to_u32_id by lia. repeat split; lia. Qed.
Lemma push_good m c o : cgood c -> op_good o -> addr_lt (2 ^ 63) o -> exists b secs c', push1 m c o (op_len o) = (b, Ok c') /\ cgood c' /\
  (forall m' cd, pre_good (next_section m' cd) secs b) /\ concat (map fst secs) ++ c_win c' = c_win c ++ [o] /\ Forall hdr_true secs /\ pre_written m secs b.
Proof.
  intros Hc Ho Ha. pose proof Hc as (Hg & Had & Hz & Hm & Hn). pose proof Ho as [[Ht Hleg] H1].
  assert (Hol : op_len o <= 65535) by (destruct o; cbn in *; lia). unfold max_win_size in Hm. pose proof (ops_len_nonneg _ (good_ok _ Hg)). pose proof (adds_len_bounds _ (good_ok _ Hg)).
  assert (Hinc : inc o (op_len o) = add_len o /\ 0 <= add_len o <= 65535) by (destruct o; cbn in *; lia || (split; [reflexivity|pose proof (zlen_nonneg bs); lia])). destruct Hinc as [Ei Hi].
  assert (S1 : forall w s n, Forall op_good w -> addrs_lt (2 ^ 63) w -> s = ops_len w -> s + op_len o <= max_win_size -> n = adds_len w ->
     cgood (mkC (w ++ [o]) (s + op_len o) (n + add_len o))).
  { intros w s n W1 W2 -> W4 ->. unfold cgood. cbn [c_win c_size c_nadd]. split; [apply Forall_app; split; [exact W1|constructor; [exact Ho|constructor]]|].
    split; [apply Forall_app; split; [exact W2|constructor; [exact Ha|constructor]]|]. rewrite ops_len_app, adds_len_app. cbn [ops_len adds_len fold_right]. unfold ops_len, adds_len. cbn [fold_right]. split; [lia|]. split; [exact W4|lia]. }
  unfold push1. rewrite (arith_u32_ok m) by lia. rewrite wbind_ret. unfold MAX_WIN_SIZE. destruct (c_size c + op_len o >? 16777215) eqn:E.
  - destruct (cgood_write m c true Hc) as (b & Eb & Hb). exists (b ++ []), [(c_win c, c_hdr c true)], (mkC ([] ++ [o]) (0 + op_len o) (0 + add_len o)). split; [|split; [|split; [|split; [|split]]]].
    + rewrite wbind_assoc, Eb. apply wbind_pair. rewrite wbind_ret. cbn [c_nadd c_size c_win]. rewrite Ei. rewrite (arith_u32_ok m (0 + add_len o)) by lia. rewrite (arith_u32_ok m (0 + op_len o)) by lia. rewrite !wbind_ret. reflexivity.
    + apply S1; [constructor|constructor|reflexivity|unfold max_win_size; lia|reflexivity].
    + intros m' cd. apply pg_cons; [apply Hb|reflexivity|constructor].
    + cbn [map fst concat c_win app]. now rewrite app_nil_r.
    + constructor; [now apply cgood_hdr|constructor].
    + apply pw_cons; [now apply cgood_in|exact Eb|reflexivity|constructor].
  - exists [], [], (mkC (c_win c ++ [o]) (c_size c + op_len o) (c_nadd c + add_len o)). split; [|split; [|split; [|split; [|split]]]].
    + rewrite wbind_ret, Ei. rewrite (arith_u32_ok m) by lia. rewrite (arith_u32_ok m (c_size c + op_len o)) by lia. rewrite !wbind_ret. reflexivity.
    + apply S1; auto. unfold max_win_size. lia.
    + intros m' cd. constructor.
    + reflexivity.
    + constructor.
    + constructor.
Qed.
Lemma pre_app next s1 b1 s2 b2 : pre_good next s1 b1 -> pre_good next s2 b2 -> pre_good next (s1 ++ s2) (b1 ++ b2).
Proof. induction 1 as [|ops0 h0 b0 secs bs Hg Hm _ IH]; intro H; cbn [app]; [exact H|]. rewrite <- app_assoc. now apply pg_cons; auto. Qed.
Lemma pushes_good m : forall ops c, cgood c -> Forall op_good ops -> addrs_lt (2 ^ 63) ops -> exists b secs c', pushes m c (sized ops) = (b, Ok c') /\ cgood c' /\
  (forall m' cd, pre_good (next_section m' cd) secs b) /\ concat (map fst secs) ++ c_win c' = c_win c ++ ops /\ Forall hdr_true secs /\ pre_written m secs b.
Proof.
  induction ops as [|o ops IH]; intros c Hc Hg Ha.
  - exists [], [], c. repeat split; try apply Hc; try constructor. cbn. now rewrite app_nil_r.
  - inversion Hg; subst. inversion Ha; subst. destruct (push_good m c o Hc) as (b1 & s1 & c1 & E1 & Hc1 & P1 & C1 & T1 & W1); [assumption|assumption|].
    destruct (IH c1 Hc1) as (b2 & s2 & c2 & E2 & Hc2 & P2 & C2 & T2 & W2); [assumption|assumption|]. exists (b1 ++ b2), (s1 ++ s2), c2. split; [|split; [exact Hc2|split; [|split; [|split]]]].
    + cbn [sized map pushes]. rewrite E1. cbn [wbind]. unfold sized in E2. now rewrite E2.
    + intros m' cd. apply pre_app; auto.
    + rewrite map_app, concat_app, <- app_assoc, C2, app_assoc, C1, <- app_assoc. reflexivity.
    + apply Forall_app; auto.
    + now apply pw_app.
Qed.

(** ** Once a length was cut to 16 bits, writing fails *)
(** What is known at any time. *)
Definition cany (c : core) : Prop := Forall op_ok (c_win c) /\ addrs_lt (2 ^ 63) (c_win c) /\ ops_len (c_win c) <= c_size c /\ zlen (c_win c) <= c_size c /\ 0 <= c_nadd c <= c_size c.
Lemma write_header_ok m h : h_format h = Interleaved -> 0 <= h_nops h < 2 ^ 64 -> 0 <= h_osize h < 2 ^ 64 -> exists b, write_section_header m h = (b, Ok tt).
Proof.
  intros Hf Hn Ho. destruct (write_u_varint_spec _ Hn) as (b1 & E1 & _). destruct (write_u_varint_spec _ Ho) as (b2 & E2 & _).
  unfold write_section_header. rewrite Hf. cbn [is_segregated]. rewrite E1. rewrite wbind_ret, E2. cbn. eexists. reflexivity.
Qed.
Lemma min_delta_none ops : addrs_lt (2 ^ 63) ops -> forall d o, 0 <= d < 2 ^ 63 -> 0 <= o < 2 ^ 63 -> has_min_delta d o ops = false.
Proof.
  induction 1 as [|x ops Hx _ IH]; intros d o Hd Ho; [reflexivity|]. cbn [has_min_delta]. destruct x as [bs|b n|[] a n]; cbn [next_d next_o]; rewrite IH by lia; lia.
Qed.
Lemma any_write m c more : cany c -> c_size c < 2 ^ 32 -> snd (plain_writer m (c_win c) (c_hdr c more)) = if (c_size c <=? max_win_size) && (ops_len (c_win c) =? c_size c) then Ok tt else Err InvalidData.
Proof.
  intros (Hok & Ha & Hz & Hl & Hn) H32. pose proof (zlen_nonneg (c_win c)). pose proof (ops_len_nonneg _ Hok). destruct (write_header_ok m (c_hdr c more) eq_refl) as (hb & E); [cbn [c_hdr h_nops]; rewrite to_u32_id by lia; lia|cbn [c_hdr h_osize]; lia|]. unfold plain_writer. rewrite E. cbn [wbind].
  assert (Ht : Forall op_typed (c_win c)) by (eapply Forall_impl; [|exact Hok]; intros x Hx; apply Hx).
  assert (Hadd : Forall (fun o => add_len o <= 65535) (c_win c)) by (eapply Forall_impl; [|exact Hok]; intros x [_ Hx]; destruct x; cbn in *; lia).
  assert (Hb : existsb bad_run (c_win c) = false).
  { clear -Hok. induction Hok as [|x l [_ Hx] _ IH]; [reflexivity|]. cbn [existsb]. rewrite IH. destruct x; cbn in *; try reflexivity. lia. }
  pose proof (write_ops_cases m (c_win c) (c_hdr c more) Ht) as W. rewrite (wires_len_short _ Hadd), Hb, (min_delta_none _ Ha) in W by lia. cbn [c_hdr h_osize h_nops h_format h_nadd is_segregated andb] in W.
  rewrite to_u32_id, Z.eqb_refl, andb_false_r in W by lia. cbn [negb orb] in W. destruct (write_ops m _ _) as [o r]. cbn [snd] in *. subst r.
  destruct (max_win_size <? c_size c) eqn:E1, (c_size c <=? max_win_size) eqn:E2, (ops_len (c_win c) =? c_size c) eqn:E3; cbn [negb andb]; reflexivity || lia.
Qed.
Lemma push_any m c o k : cany c -> ok1 (o, k) -> c_size c + k < 2 ^ 32 -> exists b, push1 m c o k = (b, Err InvalidData) \/
  exists c', push1 m c o k = (b, Ok c') /\ cany c' /\ c_size c' <= c_size c + k /\ (ops_len (c_win c) < c_size c -> ops_len (c_win c') < c_size c') /\ (op_len o < k -> ops_len (c_win c') < c_size c').
Proof.
  intros Hc (Ho & Ha & Hk & Hle & Hadd) H32. pose proof Hc as (Hok & Had & Hz & Hl & Hn). cbn [fst snd] in *. pose proof (ops_len_nonneg _ Hok). pose proof (zlen_nonneg (c_win c)).
  assert (Hi : 0 <= inc o k <= k) by (unfold inc; destruct (is_add o); lia).
  assert (S1 : forall w s n, Forall op_ok w -> addrs_lt (2 ^ 63) w -> ops_len w <= s -> zlen w <= s -> 0 <= n <= s -> cany (mkC (w ++ [o]) (s + k) (n + inc o k)) /\ ops_len (w ++ [o]) = ops_len w + op_len o).
  { intros w s n W1 W2 W3 W4 W5. assert (E : ops_len (w ++ [o]) = ops_len w + op_len o) by (rewrite ops_len_app; unfold ops_len at 2; cbn [fold_right]; lia). split; [|exact E].
    unfold cany. cbn [c_win c_size c_nadd]. split; [apply Forall_app; split; [exact W1|constructor; [exact Ho|constructor]]|].
    split; [apply Forall_app; split; [exact W2|constructor; [exact Ha|constructor]]|]. rewrite E, zlen_app. change (zlen [o]) with 1. lia. }
  unfold push1. rewrite (arith_u32_ok m) by lia. rewrite wbind_ret. unfold MAX_WIN_SIZE. destruct (c_size c + k >? 16777215) eqn:E.
  - pose proof (any_write m c true Hc ltac:(lia)) as Hw. destruct (plain_writer m (c_win c) (c_hdr c true)) as [b r]. cbn [snd] in Hw. subst r. exists (b ++ []).
    destruct ((c_size c <=? max_win_size) && (ops_len (c_win c) =? c_size c)) eqn:E1; [right|left; cbn [wbind]; now rewrite app_nil_r].
    exists (mkC ([] ++ [o]) (0 + k) (0 + inc o k)). destruct (S1 [] 0 0) as [S2 S3]; [constructor|constructor|cbn; lia|cbn; lia|lia|]. change (ops_len []) with 0 in S3. split; [|split; [exact S2|]].
    + rewrite wbind_assoc. apply wbind_pair. rewrite wbind_ret. cbn [c_nadd c_size c_win]. rewrite (arith_u32_ok m (0 + inc o k)) by lia. rewrite (arith_u32_ok m (0 + k)) by lia. rewrite !wbind_ret. reflexivity.
    + cbn [c_size c_win]. rewrite S3. lia.
  - exists []. right. exists (mkC (c_win c ++ [o]) (c_size c + k) (c_nadd c + inc o k)). destruct (S1 (c_win c) (c_size c) (c_nadd c)) as [S2 S3]; auto. split; [|split; [exact S2|]].
    + rewrite wbind_ret. rewrite (arith_u32_ok m) by lia. rewrite (arith_u32_ok m (c_size c + k)) by lia. rewrite !wbind_ret. reflexivity.
    + cbn [c_size c_win]. rewrite S3. lia.
Qed.
Lemma pushes_bad m : forall L c, cany c -> Forall ok1 L -> c_size c + sizes L < 2 ^ 32 -> (ops_len (c_win c) < c_size c \/ Exists (fun x => op_len (fst x) < snd x) L) -> exists b, pushes m c L = (b, Err InvalidData) \/
  exists c', pushes m c L = (b, Ok c') /\ cany c' /\ c_size c' < 2 ^ 32 /\ ops_len (c_win c') < c_size c'.
Proof.
  induction L as [|[o k] L IH]; intros c Hc HL Hs Hb.
  - exists []. right. exists c. split; [reflexivity|]. split; [exact Hc|]. cbn in Hs. split; [lia|]. destruct Hb as [Hb|Hb]; [exact Hb|inversion Hb].
  - inversion HL as [|? ? H1 H2]; subst. unfold sizes in Hs. cbn [fold_right snd] in Hs. fold (sizes L) in Hs.
    assert (Hnn : 0 <= sizes L) by (clear -H2; unfold sizes; induction H2 as [|x l (_ & _ & Hx & _) _ IH]; cbn [fold_right]; lia).
    destruct (push_any m c o k Hc H1 ltac:(lia)) as (b & [E|(c1 & E & Hc1 & Hs1 & T1 & T2)]); cbn [pushes]; rewrite E; cbn [wbind]; [eauto|].
    destruct (IH c1 Hc1 H2 ltac:(lia)) as (b2 & [E2|(c2 & E2 & R)]).
    { destruct Hb as [Hb|Hb]; [left; auto|]. inversion Hb as [? ? Hx|? ? Hx]; subst; [left; auto|now right]. }
    + rewrite E2. exists (b ++ b2). left. reflexivity.
    + rewrite E2. exists (b ++ b2). right. exists c2. split; [reflexivity|exact R].
Qed.
