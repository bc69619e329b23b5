(** Counting what grafting makes. *)
From Verif Require Import Base Spec MCommon MWriter MReader MDecoder MMerger SpecApi SpecMerge SpecGraft PBase PStream PSection PDecoder PPatch PEncode PMerge PMerge2 PMerge3 PMerge4 PGraft.
Ltac Zify.zify_post_hook ::= idtac.
Arguments Z.add : simpl never.
Arguments Z.sub : simpl never.
Arguments Z.mul : simpl never.
Arguments Z.min : simpl never.
Arguments Z.max : simpl never.

Definition win (lo hi p : Z) : bool := (lo <=? p) && (p <? hi).
Definition cntw (lo hi : Z) (l : list Z) : Z := zlen (filter (win lo hi) l).
Lemma cntw_app lo hi a b : cntw lo hi (a ++ b) = cntw lo hi a + cntw lo hi b. Proof. unfold cntw. now rewrite filter_app, zlen_app. Qed.
Lemma cntw_nonneg lo hi l : 0 <= cntw lo hi l. Proof. apply zlen_nonneg. Qed.
Lemma cntw_none lo hi l : (forall p, In p l -> p < lo \/ hi <= p) -> cntw lo hi l = 0.
Proof. unfold cntw. induction l as [|x l IH]; intro H; [reflexivity|]. cbn [filter]. unfold win at 1. pose proof (H x (or_introl eq_refl)). replace ((lo <=? x) && (x <? hi)) with false by lia. apply IH. intros p Hp. apply H. now right. Qed.
Lemma cntw_all lo hi l : (forall p, In p l -> lo <= p < hi) -> cntw lo hi l = zlen l.
Proof. unfold cntw. induction l as [|x l IH]; intro H; [reflexivity|]. cbn [filter]. unfold win at 1. pose proof (H x (or_introl eq_refl)). replace ((lo <=? x) && (x <? hi)) with true by lia. rewrite !zlen_cons. f_equal. apply IH. intros p Hp. apply H. now right. Qed.
Lemma cntw_ext lo hi lo' hi' l : (forall p, In p l -> win lo hi p = win lo' hi' p) -> cntw lo hi l = cntw lo' hi' l.
Proof. intro H. unfold cntw. f_equal. apply filter_ext_in. exact H. Qed.

(** A size of operations that counts points of their output. *)
Definition counts (mu : op -> Z) (pts : Z -> op -> list Z) : Prop :=
  (forall pos o p, In p (pts pos o) -> pos <= p < pos + op_len o) /\
  (forall pos o i m, 1 <= op_len o -> 0 <= i -> 1 <= m -> i + m <= op_len o -> mu (cut_op o i m) = cntw (pos + i) (pos + i + m) (pts pos o)).
Fixpoint msum (mu : op -> Z) (ops : list op) : Z := match ops with [] => 0 | o :: r => mu o + msum mu r end.
Fixpoint allpts (pts : Z -> op -> list Z) (pos : Z) (ops : list op) : list Z := match ops with [] => [] | o :: r => pts pos o ++ allpts pts (pos + op_len o) r end.
Lemma msum_app mu a b : msum mu (a ++ b) = msum mu a + msum mu b. Proof. induction a as [|o a IH]; cbn [app msum]; lia. Qed.
Lemma allpts_ge mu pts : counts mu pts -> forall ops pos p, nonempty ops -> In p (allpts pts pos ops) -> pos <= p.
Proof.
  intros [H1 H2]. induction ops as [|o ops IH]; intros pos p Hn Hin; [destruct Hin|]. inversion Hn; subst. cbn [allpts] in Hin. apply in_app_or in Hin as [Hin|Hin]; [apply H1 in Hin; lia|]. apply IH in Hin; auto. lia.
Qed.
Lemma counts_all mu pts o pos : counts mu pts -> 1 <= op_len o -> mu o = zlen (pts pos o).
Proof.
  intros [H1 H2] Ho. rewrite <- (cut_all o) at 1. rewrite (H2 pos o 0 (op_len o)) by lia. apply cntw_all. intros p Hp. apply H1 in Hp. lia.
Qed.
Lemma allpts_len mu pts : counts mu pts -> forall ops pos, nonempty ops -> zlen (allpts pts pos ops) = msum mu ops.
Proof. intro H. induction ops as [|o ops IH]; intros pos Hn; [reflexivity|]. inversion Hn; subst. cbn [allpts msum]. rewrite zlen_app, IH by auto. f_equal. symmetry. now apply counts_all. Qed.
Lemma slice_counts mu pts : counts mu pts -> forall ops pos lo hi, nonempty ops -> msum mu (slice ops (Z.max 0 (lo - pos)) (hi - Z.max lo pos)) = cntw lo hi (allpts pts pos ops) \/ pos + ops_len ops < hi.
Proof.
  intros HC. pose proof HC as [H1 H2]. induction ops as [|o ops IH]; intros pos lo hi Hn; [left; reflexivity|]. inversion Hn as [|? ? Ho Hr]; subst. pose proof (nonempty_len _ Hr). rewrite ops_len_cons.
  destruct (pos + (op_len o + ops_len ops) <? hi) eqn:Eb; [right; lia|left]. cbn [slice allpts]. rewrite cntw_app. destruct (hi - Z.max lo pos <=? 0) eqn:E.
  { assert (E0 : cntw lo hi (pts pos o) = 0) by (apply cntw_none; intros p Hp; apply H1 in Hp; lia). assert (E1 : cntw lo hi (allpts pts (pos + op_len o) ops) = 0) by (apply cntw_none; intros p Hp; apply (allpts_ge mu pts HC) in Hp; auto; lia). rewrite E0, E1. reflexivity. }
  destruct (IH (pos + op_len o) lo hi Hr) as [IH'|IH']; [|lia]. destruct (op_len o <=? Z.max 0 (lo - pos)) eqn:E2.
  - rewrite (cntw_none lo hi (pts pos o)) by (intros p Hp; apply H1 in Hp; lia). rewrite <- IH'. rewrite Z.add_0_l. f_equal. f_equal; lia.
  - cbn [msum]. rewrite <- IH'. f_equal.
    + rewrite (H2 pos) by lia. apply cntw_ext. intros p Hp. apply H1 in Hp. unfold win. lia.
    + f_equal. destruct (hi - Z.max lo pos <=? op_len o - Z.max 0 (lo - pos)) eqn:E3; [rewrite !slice_0 by lia; reflexivity|f_equal; lia].
Qed.
(** Sums over the copies from the dictionary. *)
Fixpoint csum (f : Z -> Z -> Z) (ops : list op) : Z := match ops with [] => 0 | o :: r => match o with Copy Dict a n => f a n | _ => 0 end + csum f r end.
Lemma csum_add f g ops : csum (fun a n => f a n + g a n) ops = csum f ops + csum g ops.
Proof. induction ops as [|o ops IH]; cbn [csum]; [lia|]. destruct o as [|?|[]]; lia. Qed.
Lemma csum_le f g ops : (forall a n, In (Copy Dict a n) ops -> f a n <= g a n) -> csum f ops <= csum g ops.
Proof. induction ops as [|o ops IH]; intro H; cbn [csum]; [lia|]. assert (csum f ops <= csum g ops) by (apply IH; intros; apply H; now right). destruct o as [|?|[] a n]; try lia. specialize (H a n (or_introl eq_refl)). lia. Qed.
Lemma uses_cons i o ops : uses i (o :: ops) = match o with Copy Dict a n => if (a <=? i) && (i <? a + n) then 1 else 0 | _ => 0 end + uses i ops.
Proof. unfold uses. cbn [filter]. destruct o as [|?|[] a n]; try lia. destruct ((a <=? i) && (i <? a + n)); [now rewrite zlen_cons|lia]. Qed.
Lemma uses_csum p ops : csum (fun a n => if win a (a + n) p then 1 else 0) ops = uses p ops.
Proof. induction ops as [|o ops IH]; [reflexivity|]. rewrite uses_cons. cbn [csum]. rewrite IH. destruct o as [|?|[]]; reflexivity. Qed.
Lemma double_count ops k l : uses_at_most k ops -> csum (fun a n => cntw a (a + n) l) ops <= k * zlen l.
Proof.
  intro Hk. induction l as [|p l IH].
  - rewrite zlen_nil. replace (k * 0) with 0 by lia. clear. induction ops as [|o ops IH]; cbn [csum]; [lia|]. destruct o as [|?|[]]; try lia. change (cntw addr (addr + len) []) with 0. lia.
  - rewrite zlen_cons. replace (k * (1 + zlen l)) with (k + k * zlen l) by lia. pose proof (Hk p) as Hp. rewrite <- uses_csum in Hp.
    assert (E : csum (fun a n => cntw a (a + n) (p :: l)) ops <= csum (fun a n => (if win a (a + n) p then 1 else 0) + cntw a (a + n) l) ops).
    { apply csum_le. intros a n _. unfold cntw. cbn [filter]. destruct (win a (a + n) p); [rewrite zlen_cons|]; lia. }
    rewrite csum_add in E. lia.
Qed.
Lemma graft_counts mu pts y k : counts mu pts -> nonempty y -> forall x, nonempty x -> fits (ops_len y) x -> uses_at_most k x ->
  msum mu (graft x y) <= msum (fun o => if is_dict_copy o then 0 else mu o) x + k * msum mu y.
Proof.
  intros HC Hy x Hx Hf Hk. assert (E : msum mu (graft x y) <= msum (fun o => if is_dict_copy o then 0 else mu o) x + csum (fun a n => cntw a (a + n) (allpts pts 0 y)) x).
  { clear Hk. induction Hx as [|o x Ho Hx IH]; [cbn; lia|]. apply fits_cons in Hf as [Hf1 Hf2]. rewrite graft_cons, msum_app. cbn [msum csum]. specialize (IH Hf2). unfold graft at 1. cbn [flat_map]. rewrite app_nil_r.
    destruct o as [bs|b n|[] a n]; cbn [msum is_dict_copy]; try lia. destruct (Hf1 a n (or_introl eq_refl)) as [F1 F2]. cbn [op_len] in Ho.
    destruct (slice_counts mu pts HC y 0 a (a + n) Hy) as [E|E]; [|lia]. replace (Z.max 0 (a - 0)) with a in E by lia. replace (a + n - Z.max a 0) with n in E by lia. lia. }
  pose proof (double_count x k (allpts pts 0 y) Hk) as D. rewrite (allpts_len mu pts HC y 0 Hy) in D. lia.
Qed.

(** ** Literal bytes, copies of a byte, operations *)
Fixpoint zs (pos : Z) (n : nat) : list Z := match n with O => [] | S k => pos :: zs (pos + 1) k end.
Lemma zs_in : forall n pos p, In p (zs pos n) -> pos <= p < pos + Z.of_nat n.
Proof. induction n as [|n IH]; intros pos p H; [destruct H|]. destruct H as [<-|H]; [lia|]. apply IH in H. lia. Qed.
Lemma zs_count : forall n pos lo hi, pos <= lo -> lo <= hi -> hi <= pos + Z.of_nat n -> cntw lo hi (zs pos n) = hi - lo.
Proof.
  induction n as [|n IH]; intros pos lo hi H1 H2 H3; [cbn [zs]; unfold cntw; cbn; lia|]. cbn [zs]. change (pos :: zs (pos + 1) n) with ([pos] ++ zs (pos + 1) n). rewrite cntw_app. destruct (pos <? lo) eqn:E.
  - rewrite IH by lia. rewrite cntw_none; [lia|]. intros p [<-|[]]. lia.
  - assert (pos = lo) by lia. subst lo. destruct (hi <=? pos) eqn:E2.
    + rewrite !cntw_none; [lia| |]; intros p Hp; lia.
    + rewrite (cntw_all pos hi [pos]) by (intros p [<-|[]]; lia). rewrite (cntw_ext pos hi (pos + 1) hi), IH by (try lia; intros p Hp; apply zs_in in Hp; unfold win; lia). reflexivity || (unfold zlen; cbn; lia).
Qed.
Definition lit (o : op) : Z := if is_add o then op_len o else 0.
Lemma lit_counts : counts lit (fun pos o => if is_add o then zs pos (Z.to_nat (op_len o)) else []).
Proof.
  split.
  - intros pos o p H. destruct o as [bs|?|]; try destruct H. cbn [is_add op_len] in H. apply zs_in in H. cbn [op_len]. lia.
  - intros pos o i m H1 H2 H3 H4. destruct o as [bs|b n|s a n]; try reflexivity. cbn [is_add cut_op] in *. unfold lit. cbn [is_add op_len] in *. rewrite zlen_sub by lia. rewrite zs_count by lia. lia.
Qed.
Lemma lit_sum ops : msum lit ops = bytes_of is_add ops.
Proof. unfold bytes_of. induction ops as [|o ops IH]; [reflexivity|]. cbn [msum filter]. unfold lit at 1. destruct (is_add o); [rewrite ops_len_cons|]; lia. Qed.
Lemma lit_sum' ops : msum (fun o => if is_dict_copy o then 0 else lit o) ops = bytes_of is_add ops.
Proof. rewrite <- lit_sum. induction ops as [|o ops IH]; [reflexivity|]. cbn [msum]. rewrite IH. destruct o as [|?|[]]; reflexivity. Qed.
Definition copies_byte (i : Z) (o : op) : Z := match o with Copy Dict a n => if (a <=? i) && (i <? a + n) then 1 else 0 | _ => 0 end.
Lemma copies_counts i : counts (copies_byte i) (fun pos o => match o with Copy Dict a n => if (a <=? i) && (i <? a + n) then [pos + (i - a)] else [] | _ => [] end).
Proof.
  split.
  - intros pos o p H. destruct o as [bs|?|[] a n]; try destruct H. cbn [op_len]. destruct ((a <=? i) && (i <? a + n)) eqn:E; [|destruct H]. destruct H as [<-|[]]. lia.
  - intros pos o j m H1 H2 H3 H4. destruct o as [bs|b n|[] a n]; try reflexivity. cbn [cut_op op_len copies_byte] in *. destruct ((a <=? i) && (i <? a + n)) eqn:E.
    + unfold cntw. cbn [filter]. unfold win. destruct ((pos + j <=? pos + (i - a)) && (pos + (i - a) <? pos + j + m)) eqn:E2.
      * replace ((a + j <=? i) && (i <? a + j + m)) with true by lia. reflexivity.
      * replace ((a + j <=? i) && (i <? a + j + m)) with false by lia. reflexivity.
    + replace ((a + j <=? i) && (i <? a + j + m)) with false by lia. reflexivity.
Qed.
Lemma copies_sum i ops : msum (copies_byte i) ops = uses i ops.
Proof. induction ops as [|o ops IH]; [reflexivity|]. rewrite uses_cons. cbn [msum]. rewrite IH. destruct o as [|?|[]]; reflexivity. Qed.
Lemma copies_sum' i ops : msum (fun o => if is_dict_copy o then 0 else copies_byte i o) ops = 0.
Proof. induction ops as [|o ops IH]; [reflexivity|]. cbn [msum]. rewrite IH. destruct o as [|?|[]]; reflexivity. Qed.
Lemma slice_number : forall ops pos lo hi, nonempty ops ->
  zlen (slice ops (Z.max 0 (lo - pos)) (hi - Z.max lo pos)) <= (if pos <? lo then 1 else 0) + cntw lo hi (allpts (fun p _ => [p]) pos ops).
Proof.
  induction ops as [|o ops IH]; intros pos lo hi Hn; [cbn [slice allpts]; unfold cntw; cbn; destruct (pos <? lo); lia|]. inversion Hn as [|? ? Ho Hr]; subst. cbn [slice allpts]. rewrite cntw_app.
  pose proof (cntw_nonneg lo hi [pos]). pose proof (cntw_nonneg lo hi (allpts (fun p _ => [p]) (pos + op_len o) ops)). specialize (IH (pos + op_len o) lo hi Hr). destruct (hi - Z.max lo pos <=? 0) eqn:E; [rewrite zlen_nil; destruct (pos <? lo); lia|].
  destruct (op_len o <=? Z.max 0 (lo - pos)) eqn:E2.
  - replace (Z.max 0 (lo - pos) - op_len o) with (Z.max 0 (lo - (pos + op_len o))) by lia. replace (hi - Z.max lo pos) with (hi - Z.max lo (pos + op_len o)) by lia. replace (pos <? lo) with true by lia. destruct (pos + op_len o <? lo); lia.
  - rewrite zlen_cons. replace (pos + op_len o <? lo) with false in IH by lia.
    assert (E3 : zlen (slice ops 0 (hi - Z.max lo pos - Z.min (hi - Z.max lo pos) (op_len o - Z.max 0 (lo - pos)))) <= cntw lo hi (allpts (fun p _ => [p]) (pos + op_len o) ops)).
    { destruct (hi - Z.max lo pos <=? op_len o - Z.max 0 (lo - pos)) eqn:E4; [rewrite slice_0 by lia; rewrite zlen_nil; lia|]. replace (Z.max 0 (lo - (pos + op_len o))) with 0 in IH by lia.
      replace (hi - Z.max lo pos - Z.min (hi - Z.max lo pos) (op_len o - Z.max 0 (lo - pos))) with (hi - Z.max lo (pos + op_len o)) by lia. lia. }
    destruct (pos <? lo) eqn:E5; [lia|]. rewrite (cntw_all lo hi [pos]) by (intros p [<-|[]]; lia). change (zlen [pos]) with 1. lia.
Qed.
Lemma starts_len ops : forall pos, zlen (allpts (fun p _ => [p]) pos ops) = zlen ops.
Proof. induction ops as [|o ops IH]; intro pos; [reflexivity|]. cbn [allpts]. rewrite zlen_app, IH, !zlen_cons, zlen_nil. lia. Qed.
Lemma graft_number y k : nonempty y -> forall x, nonempty x -> fits (ops_len y) x -> uses_at_most k x -> zlen (graft x y) <= zlen x + k * zlen y.
Proof.
  intros Hy x Hx Hf Hk. assert (E : zlen (graft x y) <= zlen x + csum (fun a n => cntw a (a + n) (allpts (fun p _ => [p]) 0 y)) x).
  { clear Hk. induction Hx as [|o x Ho Hx IH]; [cbn; lia|]. apply fits_cons in Hf as [Hf1 Hf2]. rewrite graft_cons, zlen_app, zlen_cons. cbn [csum]. specialize (IH Hf2). unfold graft at 1. cbn [flat_map]. rewrite app_nil_r.
    destruct o as [bs|b n|[] a n]; try (rewrite zlen_cons, zlen_nil; lia). destruct (Hf1 a n (or_introl eq_refl)) as [F1 F2]. cbn [op_len] in Ho.
    pose proof (slice_number y 0 a (a + n) Hy) as E. replace (Z.max 0 (a - 0)) with a in E by lia. replace (a + n - Z.max a 0) with n in E by lia. destruct (0 <? a); lia. }
  pose proof (double_count x k (allpts (fun p _ => [p]) 0 y) Hk) as D. rewrite starts_len in D. lia.
Qed.
