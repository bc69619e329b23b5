(** Results, machine integers, byte lists, reading and writing.
    Nothing here is specific to smdiff; every later file builds on it. *)
From Coq Require Export ZArith List Bool Lia.
From Coq Require Export ZifyBool ZifyNat.
Export ListNotations.
Open Scope Z_scope.

(** ** Outcomes of a Rust computation.
    [Err] is an [std::io::Error]: [EOF] is [ErrorKind::UnexpectedEof] (raised by [read_exact]),
    [InvalidData] is [ErrorKind::InvalidData] (raised by the code itself).
    [Panic] is any Rust panic, [Diverge] is an infinite loop (a fuel-bounded loop ran out of fuel). *)
Inductive err := EOF | InvalidData.
Inductive res (A : Type) : Type :=
| Ok (a : A)
| Err (e : err)
| Panic
| Diverge.
Arguments Ok {A} _.
Arguments Err {A} _.
Arguments Panic {A}.
Arguments Diverge {A}.

Definition bind {A B} (r : res A) (f : A -> res B) : res B :=
  match r with Ok a => f a | Err e => Err e | Panic => Panic | Diverge => Diverge end.
Notation "'do' x <- a ; b" := (bind a (fun x => b))
  (at level 200, x pattern, a at level 100, b at level 200, right associativity).

Definition is_ok {A} (r : res A) : bool := match r with Ok _ => true | _ => false end.

(** ** Build mode: [Debug] has overflow checks and [debug_assert!], [Release] has neither. *)
Inductive mode := Debug | Release.

Definition to_u8 (v : Z) : Z := v mod 2 ^ 8.
Definition to_u16 (v : Z) : Z := v mod 2 ^ 16.
Definition to_u32 (v : Z) : Z := v mod 2 ^ 32.
Definition to_u64 (v : Z) : Z := v mod 2 ^ 64.
Definition to_i64 (v : Z) : Z := (v + 2 ^ 63) mod 2 ^ 64 - 2 ^ 63.

(** The result of an arithmetic operation whose exact value is [v], at the type described by [wrap]. *)
Definition arith (m : mode) (wrap : Z -> Z) (v : Z) : res Z :=
  if wrap v =? v then Ok v else match m with Debug => Panic | Release => Ok (wrap v) end.

(** [assert!] and [debug_assert!]. *)
Definition assert_ (b : bool) : res unit := if b then Ok tt else Panic.
Definition debug_assert_ (m : mode) (b : bool) : res unit :=
  match m with Debug => assert_ b | Release => Ok tt end.

(** [usize] subtraction. *)
Definition usub (m : mode) (a b : Z) : res Z := arith m to_u64 (a - b).

(** ** Lists indexed by [Z]. *)
Definition zlen {A} (l : list A) : Z := Z.of_nat (length l).
Definition take {A} (n : Z) (l : list A) : list A := firstn (Z.to_nat n) l.
Definition drop {A} (n : Z) (l : list A) : list A := skipn (Z.to_nat n) l.
(** [sub l a n]: the [n] elements from index [a]. *)
Definition sub {A} (l : list A) (a n : Z) : list A := take n (drop a l).
Definition rep {A} (a : A) (n : Z) : list A := repeat a (Z.to_nat n).

(** [&l[a..b]]: panics unless [a <= b <= len]. *)
Definition slice {A} (l : list A) (a b : Z) : res (list A) :=
  if (0 <=? a) && (a <=? b) && (b <=? zlen l) then Ok (sub l a (b - a)) else Panic.
(** [l[i]]: panics unless [i < len]. *)
Definition idx {A} (l : list A) (i : Z) : res A :=
  if i <? 0 then Panic else match nth_error l (Z.to_nat i) with Some a => Ok a | None => Panic end.

Definition is_byte (b : Z) : Prop := 0 <= b < 256.

Fixpoint list_eqb (a b : list Z) : bool :=
  match a, b with
  | [], [] => true
  | x :: a', y :: b' => (x =? y) && list_eqb a' b'
  | _, _ => false
  end.

(** ** [std::io::Read] over the bytes not read yet. *)
Definition read_exact (n : Z) (bs : list Z) : res (list Z * list Z) :=
  if n <=? zlen bs then Ok (take n bs, drop n bs) else Err EOF.

(** ** [std::io::Write] to a growing [Vec<u8>]: what was written so far, and how the computation ended. *)
Definition W (A : Type) : Type := (list Z * res A)%type.
Definition wput (bs : list Z) : W unit := (bs, Ok tt).
Definition wlift {A} (r : res A) : W A := ([], r).
Definition wbind {A B} (w : W A) (f : A -> W B) : W B :=
  match w with
  | (o, Ok a) => let '(o', r) := f a in (o ++ o', r)
  | (o, Err e) => (o, Err e)
  | (o, Panic) => (o, Panic)
  | (o, Diverge) => (o, Diverge)
  end.
Notation "'dow' x <- a ; b" := (wbind a (fun x => b))
  (at level 200, x pattern, a at level 100, b at level 200, right associativity).
