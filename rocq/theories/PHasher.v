(** Proofs about the checksums (hasher.rs). *)
From Verif Require Import Base Spec MHasher PBase.
Ltac Zify.zify_post_hook ::= idtac.

Lemma to_u64_mod v : to_u64 v = v mod 18446744073709551616.
Proof. reflexivity. Qed.
Lemma to_u32_mod v : to_u32 v = v mod 4294967296.
Proof. reflexivity. Qed.
Lemma mod_shift M a b k : a = b + k * M -> a mod M = b mod M.
Proof. intros ->. apply Z_mod_plus_full. Qed.

Lemma sum_fold M : forall l s, fold_left (fun acc bp => (acc + (snd bp * fst bp) mod M) mod M) l (s mod M) =
  (s + fold_right (fun bp acc => snd bp * fst bp + acc) 0 l) mod M.
Proof.
  induction l as [|x l IH]; intro s; cbn [fold_left fold_right]; [now rewrite Z.add_0_r|].
  rewrite Zplus_mod_idemp_l, Zplus_mod_idemp_r, IH. f_equal. lia.
Qed.
Lemma large_explicit a b c d e f g h i : calculate_large_checksum [a; b; c; d; e; f; g; h; i] =
  (12309708155212419425 * a + 10962798122732597373 * b + 17101839937587700905 * c + 4214492644603347877 * d + 1752871083341145137 * e + 13959273915025570317 * f + 12787978306174927353 * g + 1181783497276652981 * h + 1 * i) mod 18446744073709551616.
Proof.
  pose proof (sum_fold 18446744073709551616 (combine [a; b; c; d; e; f; g; h; i] POWERS) 0) as H.
  unfold calculate_large_checksum, to_u64. etransitivity; [exact H|]. f_equal. unfold POWERS. cbn [combine fold_right fst snd]. lia.

Qed.
Lemma small_explicit a b c d : calculate_small_checksum [a; b; c; d] =
  (1143961941 * a + 1940812585 * b + 3141592653 * c + 1 * d) mod 4294967296.
Proof.
  pose proof (sum_fold 4294967296 (combine [a; b; c; d] SMALL_POWERS) 0) as H.
  unfold calculate_small_checksum, to_u32. etransitivity; [exact H|]. f_equal. unfold SMALL_POWERS. cbn [combine fold_right fst snd]. lia.
Qed.
Lemma fwd_explicit s o n : update_large_checksum_fwd (s mod 18446744073709551616) o n = (HASH_MULT * s - FIRST_BYTE_WEIGHT * o + n) mod 18446744073709551616.
Proof.
  unfold update_large_checksum_fwd. rewrite !to_u64_mod.
  rewrite Zplus_mod_idemp_l, <- Zplus_mod_idemp_l, Zminus_mod_idemp_l, Zminus_mod_idemp_r, Zplus_mod_idemp_l.
  rewrite <- Zplus_mod_idemp_l, <- Zminus_mod_idemp_l, Zmult_mod_idemp_r, Zminus_mod_idemp_l, Zplus_mod_idemp_l. reflexivity.
Qed.
Lemma bwd_explicit s o n : update_large_checksum_bwd (s mod 18446744073709551616) o n = ((s - o + FIRST_BYTE_WEIGHT * n) * MOD_INV) mod 18446744073709551616.
Proof.
  unfold update_large_checksum_bwd. rewrite !to_u64_mod.
  rewrite Zmult_mod_idemp_l, <- Zmult_mod_idemp_l, Zplus_mod_idemp_l, Zplus_mod_idemp_r, <- Zplus_mod_idemp_l, Zminus_mod_idemp_l, Zplus_mod_idemp_l, Zmult_mod_idemp_l.
  reflexivity.
Qed.
Lemma small_fwd_explicit s o n : update_small_checksum_fwd (s mod 4294967296) o n = (SMALL_MULT * s - SMALL_FIRST_BYTE_WEIGHT * o + n) mod 4294967296.
Proof.
  unfold update_small_checksum_fwd. rewrite !to_u32_mod.
  rewrite Zplus_mod_idemp_l, <- Zplus_mod_idemp_l, Zminus_mod_idemp_l, Zminus_mod_idemp_r, Zplus_mod_idemp_l.
  rewrite <- Zplus_mod_idemp_l, <- Zminus_mod_idemp_l, Zmult_mod_idemp_r, Zminus_mod_idemp_l, Zplus_mod_idemp_l. reflexivity.
Qed.

Lemma large_fwd9 a b c d e f g h i n :
  update_large_checksum_fwd (calculate_large_checksum [a; b; c; d; e; f; g; h; i]) a n = calculate_large_checksum [b; c; d; e; f; g; h; i; n].
Proof.
  rewrite !large_explicit, fwd_explicit. apply (mod_shift _ _ _ (788616673814809152 * a + 702327405511380043 * b + 1095622735944623577 * c + 269999835032377952 * d + 112297005415625220 * e + 894295463786105365 * f + 819256865351539461 * g + 75710500934736763 * h)). unfold HASH_MULT, FIRST_BYTE_WEIGHT. lia.
Qed.
Lemma large_bwd9 a b c d e f g h i n :
  update_large_checksum_bwd (calculate_large_checksum [b; c; d; e; f; g; h; i; n]) n a = calculate_large_checksum [a; b; c; d; e; f; g; h; i].
Proof.
  rewrite !large_explicit, bwd_explicit. apply (mod_shift _ _ _ (1974437704519928237 * a + 9019274287458328922 * b + 8032398654804039552 * c + 12530450216400844673 * d + 3087942026315025161 * e + 1284321682680477896 * f + 10227904569781840020 * g + 9369700928012629186 * h + 865888075974938893 * i)). unfold MOD_INV, FIRST_BYTE_WEIGHT. lia.
Qed.
Lemma small_fwd4 a b c d n :
  update_small_checksum_fwd (calculate_small_checksum [a; b; c; d]) a n = calculate_small_checksum [b; c; d; n].
Proof.
  rewrite !small_explicit, small_fwd_explicit. apply (mod_shift _ _ _ (836761302 * a + 1419624909 * b + 2297946344 * c)). unfold SMALL_MULT, SMALL_FIRST_BYTE_WEIGHT. lia.
Qed.
