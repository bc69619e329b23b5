(** Model of smdiff-encoder/src/hasher.rs (64-bit pointer width). *)
From Verif Require Import Base Spec.

(** lines 4, 7, 17, 23-33, 70-76 *)
Definition HASH_MULT := 1181783497276652981.
Definition MOD_INV := 13515856136758413469.
Definition FIRST_BYTE_WEIGHT := 2694756932615366293.
Definition POWERS := [12309708155212419425; 10962798122732597373; 17101839937587700905; 4214492644603347877;
                      1752871083341145137; 13959273915025570317; 12787978306174927353; 1181783497276652981; 1].
Definition SMALL_POWERS := [1143961941; 1940812585; 3141592653; 1].
Definition SMALL_MULT := 3141592653.
Definition SMALL_FIRST_BYTE_WEIGHT := 2508840081.

(** calculate_large_checksum, lines 49-55: zip stops at the shorter list. *)
Definition calculate_large_checksum (data : list Z) : Z :=
  fold_left (fun acc bp => to_u64 (acc + to_u64 (snd bp * fst bp))) (combine data POWERS) 0.
(** update_large_checksum_fwd, lines 58-62 *)
Definition update_large_checksum_fwd (c old new : Z) : Z :=
  to_u64 (to_u64 (to_u64 (HASH_MULT * c) - to_u64 (FIRST_BYTE_WEIGHT * old)) + new).
(** update_large_checksum_bwd, lines 65-69 *)
Definition update_large_checksum_bwd (c old new : Z) : Z :=
  to_u64 (to_u64 (to_u64 (c - old) + to_u64 (FIRST_BYTE_WEIGHT * new)) * MOD_INV).
(** calculate_small_checksum, lines 78-84 *)
Definition calculate_small_checksum (data : list Z) : Z :=
  fold_left (fun acc bp => to_u32 (acc + to_u32 (snd bp * fst bp))) (combine data SMALL_POWERS) 0.
(** update_small_checksum_fwd, lines 88-92 *)
Definition update_small_checksum_fwd (c old new : Z) : Z :=
  to_u32 (to_u32 (to_u32 (SMALL_MULT * c) - to_u32 (SMALL_FIRST_BYTE_WEIGHT * old)) + new).
