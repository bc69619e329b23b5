(** Model of the helper functions of smdiff-common/src/lib.rs that tell what an operation is. *)
From Verif Require Import Base Spec MCommon.

(** Op::is_add, lib.rs:166-168 *)
Definition is_add_op (o : op) : bool := match o with Add _ => true | _ => false end.
(** Op::is_copy, lib.rs:172-174 *)
Definition is_copy_op (o : op) : bool := match o with Copy _ _ _ => true | _ => false end.
(** Op::take_copy, lib.rs:175-181; the fields of the Copy *)
Definition take_copy (o : op) : option (csrc * Z * Z) := match o with Copy s a n => Some (s, a, n) | _ => None end.
(** Size::size_overhead, lib.rs:205-215 *)
Definition size_overhead (s : size) : Z := match s with Done _ => 0 | U8And62 => 1 | U16 => 2 end.
