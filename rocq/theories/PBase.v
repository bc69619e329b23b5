(** Lemmas about lists indexed by [Z], results and machine integers. *)
From Verif Require Import Base.

Lemma zlen_nil {A} : zlen (@nil A) = 0.
Proof. reflexivity. Qed.
Lemma zlen_cons {A} (x : A) l : zlen (x :: l) = 1 + zlen l.
Proof. unfold zlen; cbn [length]; lia. Qed.
Lemma zlen_app {A} (a b : list A) : zlen (a ++ b) = zlen a + zlen b.
Proof. unfold zlen; rewrite app_length; lia. Qed.
Lemma zlen_nonneg {A} (l : list A) : 0 <= zlen l.
Proof. unfold zlen; lia. Qed.
Lemma zlen_0 {A} (l : list A) : zlen l = 0 -> l = [].
Proof. destruct l; [reflexivity|]; rewrite zlen_cons; pose proof (zlen_nonneg l); lia. Qed.
Lemma zlen_rep {A} (a : A) n : zlen (rep a n) = Z.max 0 n.
Proof. unfold zlen, rep; rewrite repeat_length; lia. Qed.
Lemma zlen_take {A} n (l : list A) : 0 <= n <= zlen l -> zlen (take n l) = n.
Proof. unfold zlen, take; rewrite firstn_length; lia. Qed.
Lemma zlen_take_min {A} n (l : list A) : zlen (take n l) = Z.min (Z.max 0 n) (zlen l).
Proof. unfold zlen, take; rewrite firstn_length; lia. Qed.
Lemma zlen_drop {A} n (l : list A) : 0 <= n <= zlen l -> zlen (drop n l) = zlen l - n.
Proof. unfold zlen, drop; rewrite skipn_length; lia. Qed.
Lemma zlen_drop_max {A} n (l : list A) : zlen (drop n l) = Z.max 0 (zlen l - Z.max 0 n).
Proof. unfold zlen, drop; rewrite skipn_length; lia. Qed.
Lemma zlen_sub {A} (l : list A) a n : 0 <= a -> 0 <= n -> a + n <= zlen l -> zlen (sub l a n) = n.
Proof. intros Ha Hn H; unfold sub; rewrite zlen_take; [lia|]; rewrite zlen_drop; lia. Qed.
Lemma zlen_map {A B} (f : A -> B) l : zlen (map f l) = zlen l.
Proof. unfold zlen; now rewrite map_length. Qed.
Lemma zlen_rev {A} (l : list A) : zlen (rev l) = zlen l.
Proof. unfold zlen; now rewrite rev_length. Qed.

Lemma take_drop {A} n (l : list A) : take n l ++ drop n l = l.
Proof. apply firstn_skipn. Qed.
Lemma take_0 {A} n (l : list A) : n <= 0 -> take n l = [].
Proof. intro H; unfold take; now replace (Z.to_nat n) with 0%nat by lia. Qed.
Lemma drop_0 {A} n (l : list A) : n <= 0 -> drop n l = l.
Proof. intro H; unfold drop; now replace (Z.to_nat n) with 0%nat by lia. Qed.
Lemma take_all {A} n (l : list A) : zlen l <= n -> take n l = l.
Proof. intro H; unfold take; apply firstn_all2; unfold zlen in H; lia. Qed.
Lemma drop_all {A} n (l : list A) : zlen l <= n -> drop n l = [].
Proof. intro H; unfold drop; apply skipn_all2; unfold zlen in H; lia. Qed.
Lemma take_app {A} n (a b : list A) : zlen a = n -> take n (a ++ b) = a.
Proof.
  intro H; unfold take; rewrite firstn_app.
  replace (Z.to_nat n - length a)%nat with 0%nat by (unfold zlen in H; lia).
  rewrite firstn_all2 by (unfold zlen in H; lia); cbn; apply app_nil_r.
Qed.
Lemma drop_app {A} n (a b : list A) : zlen a = n -> drop n (a ++ b) = b.
Proof.
  intro H; unfold drop; rewrite skipn_app.
  replace (Z.to_nat n - length a)%nat with 0%nat by (unfold zlen in H; lia).
  rewrite skipn_all2 by (unfold zlen in H; lia); reflexivity.
Qed.
Lemma take_app_l {A} n (a b : list A) : n <= zlen a -> take n (a ++ b) = take n a.
Proof.
  intro H; unfold take; rewrite firstn_app.
  replace (Z.to_nat n - length a)%nat with 0%nat by (unfold zlen in H; lia).
  cbn; apply app_nil_r.
Qed.
Lemma take_app_r {A} n (a b : list A) : zlen a <= n -> take n (a ++ b) = a ++ take (n - zlen a) b.
Proof.
  intro H; unfold take; rewrite firstn_app, firstn_all2 by (unfold zlen in H; lia).
  do 2 f_equal; unfold zlen in *; lia.
Qed.
Lemma drop_app_l {A} n (a b : list A) : n <= zlen a -> drop n (a ++ b) = drop n a ++ b.
Proof.
  intro H; unfold drop; rewrite skipn_app.
  replace (Z.to_nat n - length a)%nat with 0%nat by (unfold zlen in H; lia). reflexivity.
Qed.
Lemma drop_app_r {A} n (a b : list A) : zlen a <= n -> drop n (a ++ b) = drop (n - zlen a) b.
Proof.
  intro H; unfold drop; rewrite skipn_app, skipn_all2 by (unfold zlen in H; lia).
  cbn; f_equal; unfold zlen in *; lia.
Qed.
Lemma drop_drop {A} n k (l : list A) : 0 <= n -> 0 <= k -> drop n (drop k l) = drop (k + n) l.
Proof.
  intros Hn Hk; unfold drop. rewrite Z2Nat.inj_add by lia.
  generalize (Z.to_nat n) as a, (Z.to_nat k) as b; clear; intros a b; revert l.
  induction b as [|b IH]; intro l; [reflexivity|].
  destruct l as [|x l]; cbn [skipn Nat.add]; [destruct a; reflexivity|apply IH].
Qed.
Lemma take_take {A} n k (l : list A) : take n (take k l) = take (Z.min n k) l.
Proof. unfold take; rewrite firstn_firstn; f_equal; lia. Qed.
Lemma take_drop_comm {A} n k (l : list A) : 0 <= n -> 0 <= k -> take n (drop k l) = drop k (take (k + n) l).
Proof.
  intros Hn Hk; unfold take, drop; rewrite Z2Nat.inj_add by lia.
  rewrite skipn_firstn_comm; f_equal; lia.
Qed.
Lemma sub_app_l {A} (a b : list A) s n : 0 <= s -> 0 <= n -> s + n <= zlen a -> sub (a ++ b) s n = sub a s n.
Proof.
  intros Hs Hn H; unfold sub. rewrite drop_app_l by lia.
  apply take_app_l; rewrite zlen_drop; lia.
Qed.
Lemma sub_app_r {A} (a b : list A) s n : zlen a <= s -> sub (a ++ b) s n = sub b (s - zlen a) n.
Proof. intro H; unfold sub; now rewrite drop_app_r by lia. Qed.
Lemma sub_all {A} (l : list A) n : zlen l <= n -> sub l 0 n = l.
Proof. intro H; unfold sub; rewrite drop_0 by lia; now apply take_all. Qed.
Lemma sub_0 {A} (l : list A) a n : n <= 0 -> sub l a n = [].
Proof. intro H; unfold sub; now apply take_0. Qed.
Lemma sub_split {A} (l : list A) a n k :
  0 <= a -> 0 <= k <= n -> sub l a n = sub l a k ++ sub l (a + k) (n - k).
Proof.
  intros Ha Hk; unfold sub.
  rewrite <- (take_drop k (take n (drop a l))).
  f_equal.
  - rewrite take_take; now replace (Z.min k n) with k by lia.
  - rewrite <- (drop_drop k a) by lia.
    rewrite (take_drop_comm (n - k) k) by lia. now replace (k + (n - k)) with n by lia.
Qed.
Lemma sub_sub {A} (l : list A) a n b k :
  0 <= a -> 0 <= b -> 0 <= k -> b + k <= n -> sub (sub l a n) b k = sub l (a + b) k.
Proof.
  intros Ha Hb Hk H; unfold sub.
  rewrite <- (drop_drop b a) by lia.
  rewrite (take_drop_comm k b) by lia.
  rewrite take_take. rewrite (take_drop_comm k b) by lia.
  now replace (Z.min (b + k) n) with (b + k) by lia.
Qed.
Lemma take_sub {A} (l : list A) a n k : 0 <= k <= n -> take k (sub l a n) = sub l a k.
Proof. intro H; unfold sub; rewrite take_take; f_equal; lia. Qed.
Lemma drop_sub_end {A} (l : list A) a n : 0 <= a -> 0 <= n -> drop a l = sub l a n ++ drop (a + n) l.
Proof.
  intros Ha Hn; rewrite <- (take_drop n (drop a l)) at 1.
  unfold sub; f_equal; apply drop_drop; lia.
Qed.
Lemma take_split {A} (l : list A) a n : 0 <= a -> 0 <= n -> take (a + n) l = take a l ++ sub l a n.
Proof.
  intros Ha Hn. change (take (a + n) l) with (take (a + n) l).
  rewrite <- (take_drop a (take (a + n) l)).
  rewrite take_take, <- take_drop_comm by lia.
  unfold sub; f_equal; f_equal; lia.
Qed.
Lemma take_is_sub {A} (l : list A) n : take n l = sub l 0 n.
Proof. unfold sub; now rewrite drop_0 by lia. Qed.
Lemma drop_is_sub {A} (l : list A) n : 0 <= n <= zlen l -> drop n l = sub l n (zlen l - n).
Proof. intro H; unfold sub; rewrite take_all; [reflexivity|]; rewrite zlen_drop; lia. Qed.

Lemma rep_app {A} (a : A) n k : 0 <= n -> 0 <= k -> rep a n ++ rep a k = rep a (n + k).
Proof. intros; unfold rep; rewrite <- repeat_app; f_equal; lia. Qed.
Lemma rep_0 {A} (a : A) n : n <= 0 -> rep a n = [].
Proof. intro H; unfold rep; now replace (Z.to_nat n) with 0%nat by lia. Qed.
Lemma rep_S {A} (a : A) n : 0 < n -> rep a n = a :: rep a (n - 1).
Proof.
  intro H; unfold rep. replace (Z.to_nat n) with (S (Z.to_nat (n - 1))) by lia. reflexivity.
Qed.
Lemma firstn_repeat {A} (a : A) n k : firstn n (repeat a k) = repeat a (Nat.min n k).
Proof. revert k; induction n as [|n IH]; intros [|k]; cbn; try reflexivity; now rewrite IH. Qed.
Lemma skipn_repeat {A} (a : A) n k : skipn n (repeat a k) = repeat a (k - n)%nat.
Proof. revert k; induction n as [|n IH]; intros [|k]; cbn; try reflexivity; apply IH. Qed.
Lemma sub_rep {A} (a : A) n s k : 0 <= s -> 0 <= k -> s + k <= n -> sub (rep a n) s k = rep a k.
Proof.
  intros Hs Hk H; unfold sub, take, drop, rep.
  rewrite skipn_repeat, firstn_repeat; f_equal; lia.
Qed.
Lemma Forall_rep {A} (P : A -> Prop) a n : P a -> Forall P (rep a n).
Proof. intro H; unfold rep; apply Forall_forall; intros x Hx; now apply repeat_spec in Hx; subst. Qed.

Lemma Forall_take {A} (P : A -> Prop) n l : Forall P l -> Forall P (take n l).
Proof.
  intro H; rewrite <- (take_drop n l) in H; now apply Forall_app in H.
Qed.
Lemma Forall_drop {A} (P : A -> Prop) n l : Forall P l -> Forall P (drop n l).
Proof. intro H; rewrite <- (take_drop n l) in H; now apply Forall_app in H. Qed.
Lemma Forall_sub {A} (P : A -> Prop) l a n : Forall P l -> Forall P (sub l a n).
Proof. intro H; apply Forall_take, Forall_drop, H. Qed.

(** Slices and indexing *)
Lemma slice_ok {A} (l : list A) a b : 0 <= a <= b -> b <= zlen l -> slice l a b = Ok (sub l a (b - a)).
Proof. intros H H'; unfold slice. now replace ((0 <=? a) && (a <=? b) && (b <=? zlen l)) with true by lia. Qed.
Lemma slice_inv {A} (l : list A) a b r :
  slice l a b = Ok r -> 0 <= a <= b /\ b <= zlen l /\ r = sub l a (b - a).
Proof.
  unfold slice. destruct ((0 <=? a) && (a <=? b) && (b <=? zlen l)) eqn:E; [|discriminate].
  intro H; injection H as <-. split; [lia|split; [lia|reflexivity]].
Qed.
Lemma idx_ok {A} (l : list A) i : 0 <= i < zlen l -> exists x, idx l i = Ok x /\ nth_error l (Z.to_nat i) = Some x.
Proof.
  intro H; unfold idx. replace (i <? 0) with false by lia.
  destruct (nth_error l (Z.to_nat i)) as [x|] eqn:E; [now exists x|].
  apply nth_error_None in E. unfold zlen in H; lia.
Qed.
Lemma idx_inv {A} (l : list A) i x : idx l i = Ok x -> 0 <= i < zlen l /\ nth_error l (Z.to_nat i) = Some x.
Proof.
  unfold idx. destruct (i <? 0) eqn:E; [discriminate|].
  destruct (nth_error l (Z.to_nat i)) as [y|] eqn:E'; [|discriminate].
  intro H; injection H as <-. split; [|reflexivity].
  assert (Hn : (Z.to_nat i < length l)%nat) by (apply nth_error_Some; congruence).
  unfold zlen; lia.
Qed.
Lemma idx_sub1 {A} (l : list A) i x : idx l i = Ok x -> sub l i 1 = [x].
Proof.
  intro H; apply idx_inv in H as [H1 H2]. unfold sub, take, drop.
  apply nth_error_split in H2 as (l1 & l2 & -> & Hl).
  rewrite skipn_app, <- Hl, skipn_all, Nat.sub_diag. reflexivity.
Qed.
Lemma sub_cons {A} (l : list A) a n x :
  idx l a = Ok x -> 1 <= n -> sub l a n = x :: sub l (a + 1) (n - 1).
Proof.
  intros H Hn. pose proof (idx_inv _ _ _ H) as [Ha _].
  rewrite (sub_split l a n 1) by lia. now rewrite (idx_sub1 _ _ _ H).
Qed.
Lemma idx_sub {A} (l : list A) a n i : 0 <= a -> 0 <= i < n -> a + n <= zlen l -> idx (sub l a n) i = idx l (a + i).
Proof.
  intros Ha Hi H.
  destruct (idx_ok l (a + i) ltac:(lia)) as (x & Hx & _). rewrite Hx.
  assert (H1 : sub (sub l a n) i 1 = [x]) by (rewrite sub_sub by lia; now apply idx_sub1).
  destruct (idx_ok (sub l a n) i) as (y & Hy & _); [rewrite zlen_sub; lia|].
  rewrite (idx_sub1 _ _ _ Hy) in H1. congruence.
Qed.
Lemma idx_app_l {A} (a b : list A) i : 0 <= i < zlen a -> idx (a ++ b) i = idx a i.
Proof.
  intro H; unfold idx. destruct (i <? 0); [reflexivity|].
  rewrite nth_error_app1; [reflexivity|]. unfold zlen in H; lia.
Qed.

(** [read_exact] *)
Lemma read_exact_ok n a rest : zlen a = n -> read_exact n (a ++ rest) = Ok (a, rest).
Proof.
  intro H; unfold read_exact. rewrite zlen_app.
  replace (n <=? zlen a + zlen rest) with true by (pose proof (zlen_nonneg rest); lia).
  now rewrite (take_app n), (drop_app n).
Qed.

(** machine integers *)
Lemma to_u8_id v : 0 <= v < 256 -> to_u8 v = v.
Proof. intro H; apply Z.mod_small; lia. Qed.
Lemma to_u16_id v : 0 <= v < 65536 -> to_u16 v = v.
Proof. intro H; apply Z.mod_small; lia. Qed.
Lemma to_u32_id v : 0 <= v < 2 ^ 32 -> to_u32 v = v.
Proof. intro H; apply Z.mod_small; lia. Qed.
Lemma to_u64_id v : 0 <= v < 2 ^ 64 -> to_u64 v = v.
Proof. intro H; apply Z.mod_small; lia. Qed.
Lemma to_i64_id v : - 2 ^ 63 <= v < 2 ^ 63 -> to_i64 v = v.
Proof. intro H; unfold to_i64; rewrite Z.mod_small; lia. Qed.
Lemma to_u8_range v : 0 <= to_u8 v < 256.
Proof. apply Z.mod_pos_bound; lia. Qed.
Lemma to_u16_range v : 0 <= to_u16 v < 65536.
Proof. apply (Z.mod_pos_bound v 65536); lia. Qed.
Lemma to_u32_range v : 0 <= to_u32 v < 2 ^ 32.
Proof. apply Z.mod_pos_bound; lia. Qed.
Lemma to_u64_range v : 0 <= to_u64 v < 2 ^ 64.
Proof. apply Z.mod_pos_bound; lia. Qed.
Lemma arith_ok m wrap v : wrap v = v -> arith m wrap v = Ok v.
Proof. intro H; unfold arith; now rewrite H, Z.eqb_refl. Qed.
Lemma usub_ok m a b : 0 <= b <= a -> a < 2 ^ 64 -> usub m a b = Ok (a - b).
Proof. intros; unfold usub; apply arith_ok, to_u64_id; lia. Qed.

Lemma list_eqb_eq a b : list_eqb a b = true <-> a = b.
Proof.
  revert b; induction a as [|x a IH]; intros [|y b]; cbn [list_eqb]; split; intro H; try discriminate; try reflexivity.
  - apply andb_true_iff in H as [H1 H2]. apply Z.eqb_eq in H1; apply IH in H2; congruence.
  - injection H as <- <-. rewrite Z.eqb_refl; cbn; now apply IH.
Qed.

(** Bind inversion *)
Lemma bind_ok {A B} (r : res A) (f : A -> res B) b : bind r f = Ok b -> exists a, r = Ok a /\ f a = Ok b.
Proof. destruct r; cbn; intro H; try discriminate; now exists a. Qed.
Ltac inv_bind H :=
  let Hx := fresh "Hb" in
  apply bind_ok in H as (? & Hx & H).

Lemma wbind_ok {A B} (w : W A) (f : A -> W B) o b :
  wbind w f = (o, Ok b) -> exists o1 a o2, w = (o1, Ok a) /\ f a = (o2, Ok b) /\ o = o1 ++ o2.
Proof.
  destruct w as [o1 [a|e| |]]; cbn; intro H; try discriminate.
  destruct (f a) as [o2 r] eqn:E. injection H as <- ->. now exists o1, a, o2.
Qed.

(** A fact about all bytes, from a computation. *)
Lemma byte_sweep (P : Z -> bool) :
  forallb P (map Z.of_nat (seq 0 256)) = true -> forall b, 0 <= b < 256 -> P b = true.
Proof.
  intros H b Hb. rewrite forallb_forall in H. apply H.
  apply in_map_iff. exists (Z.to_nat b). split; [lia|]. apply in_seq. lia.
Qed.

Lemma wbind_step {A B} (w : W A) (f : A -> W B) o a o' r : w = (o, Ok a) -> f a = (o', r) -> wbind w f = (o ++ o', r).
Proof. intros -> H. cbn. now rewrite H. Qed.
Lemma wbind_lift {A B} (r : res A) (f : A -> W B) a : r = Ok a -> wbind (wlift r) f = f a.
Proof. intros ->. cbn. now destruct (f a). Qed.
Lemma wbind_put {B} bs (f : unit -> W B) o r : f tt = (o, r) -> wbind (wput bs) f = (bs ++ o, r).
Proof. intro H. cbn. now rewrite H. Qed.
