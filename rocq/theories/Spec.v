(** The specification used in the statements of the property theorems.
    It is written from the documentation (spec.md, rustdoc) and mentions no function of the model of the code. *)
From Verif Require Import Base.

(** ** Operations and their meaning (spec.md section 4.2; smdiff-common Op).
    A byte is a [Z]; addresses and lengths are [Z]. *)
Inductive csrc := Dict | Output.
Inductive op :=
| Add (bs : list Z)
| Run (byte len : Z)
| Copy (src : csrc) (addr len : Z).

(** Number of output bytes an operation produces. *)
Definition op_len (o : op) : Z :=
  match o with Add bs => zlen bs | Run _ n => n | Copy _ _ n => n end.
Definition ops_len (ops : list op) : Z := fold_right (fun o s => op_len o + s) 0 ops.
(** Number of literal bytes an operation list carries. *)
Definition add_len (o : op) : Z := match o with Add bs => zlen bs | _ => 0 end.
Definition adds_len (ops : list op) : Z := fold_right (fun o s => add_len o + s) 0 ops.

Definition in_range (l : list Z) (addr len : Z) : bool :=
  (len =? 0) || ((0 <=? addr) && (addr + len <=? zlen l)).

(** The bytes an operation appends to the output [out] produced so far; [None]: a copy out of range. *)
Definition op_bytes (dict out : list Z) (o : op) : option (list Z) :=
  match o with
  | Add bs => Some bs
  | Run b n => Some (rep b n)
  | Copy Dict a n => if in_range dict a n then Some (sub dict a n) else None
  | Copy Output a n => if in_range out a n then Some (sub out a n) else None
  end.

(** Performing operations one after the other. *)
Fixpoint run_ops (dict out : list Z) (ops : list op) : option (list Z) :=
  match ops with
  | [] => Some out
  | o :: ops' =>
      match op_bytes dict out o with
      | Some b => run_ops dict (out ++ b) ops'
      | None => None
      end
  end.

Definition is_dict_copy (o : op) : bool := match o with Copy Dict _ _ => true | _ => false end.
Definition is_copy (o : op) : bool := match o with Copy _ _ _ => true | _ => false end.
Definition is_out_copy (o : op) : bool := match o with Copy Output _ _ => true | _ => false end.
Definition is_add (o : op) : bool := match o with Add _ => true | _ => false end.

(** Values an operation can have in the Rust types (Run.len : u8, Copy.len : u16, Copy.addr : u64, bytes u8). *)
Definition op_typed (o : op) : Prop :=
  match o with
  | Add bs => Forall is_byte bs
  | Run b n => is_byte b /\ 0 <= n < 256
  | Copy _ a n => 0 <= a < 2 ^ 64 /\ 0 <= n < 65536
  end.

(** Limits of the format (spec.md): Run 1..62, Add and Copy at most 65535 bytes. *)
Definition op_legal (o : op) : Prop :=
  match o with
  | Add bs => zlen bs <= 65535
  | Run _ n => 1 <= n <= 62
  | Copy _ _ n => 0 <= n <= 65535
  end.
Definition op_ok (o : op) : Prop := op_typed o /\ op_legal o.

(** As [op_ok] but also non-empty: what an encoder should emit. *)
Definition op_good (o : op) : Prop := op_ok o /\ 1 <= op_len o.

Definition max_inst_size : Z := 65535.
Definition max_win_size : Z := 16777215.
(** The section size the writer aims at when asked for [n]. *)
Definition clamp_section (n : Z) : Z := Z.min (Z.max n max_inst_size) max_win_size.

(** ** LEB128 / protobuf varints (spec.md section 3): 7 bits per byte, least significant group first,
    bit 7 set on every byte but the last. [leb bs v]: the byte list [bs] is an encoding of [v]. *)
Inductive leb : list Z -> Z -> Prop :=
| leb_last b : 0 <= b < 128 -> leb [b] b
| leb_more b bs v : 128 <= b < 256 -> leb bs v -> leb (b :: bs) ((b - 128) + 128 * v).

(** Zig-zag numbering of the integers: 0, -1, 1, -2, 2 ... *)
Definition zigzag (n : Z) : Z := if 0 <=? n then 2 * n else -2 * n - 1.

(** ** Size rules of spec.md 4.2.1/4.2.2: how a size indicator [s] (0..63) and the bytes following it denote a size. *)
Inductive size_enc : Z -> list Z -> Z -> Prop :=
| size_direct n : 1 <= n <= 62 -> size_enc n [] n
| size_u8 b : is_byte b -> size_enc 63 [b] (b + 62)
| size_u16 lo hi : is_byte lo -> is_byte hi -> size_enc 0 [lo; hi] (lo + 256 * hi).

(** ** Sections *)
Inductive format := Interleaved | Segregated.
Record header := mkHeader {
  h_comp : Z;          (* compression_algo : u8 *)
  h_format : format;
  h_more : bool;       (* more_sections *)
  h_nops : Z;          (* num_operations : u32 *)
  h_nadd : Z;          (* num_add_bytes : u32 *)
  h_osize : Z          (* output_size : u32 *)
}.

(** The header tells the truth about [ops]. *)
Definition header_for (h : header) (ops : list op) : Prop :=
  h_nops h = zlen ops /\ h_osize h = ops_len ops /\ h_nadd h = adds_len ops.

(** All elements but the last satisfy [more = true], the last has [more = false]. *)
Fixpoint flags_ok (hs : list header) : Prop :=
  match hs with
  | [] => False
  | [h] => h_more h = false
  | h :: r => h_more h = true /\ flags_ok r
  end.

(** ** Operation encodings (spec.md 4.2, with the operation type in the two high bits of the operation byte as the
    code and its tests have it). [op_enc d o bs x]: in an interleaved section, after dictionary copies last used
    address [d] and output copies last used [o], the bytes [bs] encode [x]. *)
Definition type_code (o : op) : Z :=
  match o with Copy Dict _ _ => 0 | Copy Output _ _ => 1 | Add _ => 2 | Run _ _ => 3 end.
Definition last_addr (d o : Z) (s : csrc) : Z := match s with Dict => d | Output => o end.
Inductive op_enc (d o : Z) : list Z -> op -> Prop :=
| enc_add s sb bs : size_enc s sb (zlen bs) -> op_enc d o ((64 * 2 + s) :: sb ++ bs) (Add bs)
| enc_run n b : 1 <= n <= 62 -> op_enc d o [64 * 3 + n; b] (Run b n)
| enc_copy src s sb n db delta :
    size_enc s sb n -> leb db (zigzag delta) -> zlen db <= 10 -> - 2 ^ 63 < delta < 2 ^ 63 ->
    op_enc d o ((64 * match src with Dict => 0 | Output => 1 end + s) :: sb ++ db)
           (Copy src ((last_addr d o src + delta) mod 2 ^ 64) n).

(** Last used addresses after an operation. *)
Definition next_d (d : Z) (x : op) : Z := match x with Copy Dict a _ => a | _ => d end.
Definition next_o (o : Z) (x : op) : Z := match x with Copy Output a _ => a | _ => o end.

(** No copy address is exactly 2^63 away from the previous one of the same kind
    (such a difference overflows an i64 negation in overflow-checked builds). *)
Fixpoint deltas_ok (d o : Z) (ops : list op) : Prop :=
  match ops with
  | [] => True
  | x :: r =>
      match x with
      | Copy Dict a _ => Z.abs (a - d) <> 2 ^ 63
      | Copy Output a _ => Z.abs (a - o) <> 2 ^ 63
      | _ => True
      end /\ deltas_ok (next_d d x) (next_o o x) r
  end.
(** Some copy address is exactly 2^63 below the previous one of the same kind. *)
Fixpoint has_min_delta (d o : Z) (ops : list op) : bool :=
  match ops with
  | [] => false
  | x :: r =>
      match x with
      | Copy Dict a _ => d - a =? 2 ^ 63
      | Copy Output a _ => o - a =? 2 ^ 63
      | _ => false
      end || has_min_delta (next_d d x) (next_o o x) r
  end.

(** Values the fields of a header can have (algo 3 bits, counts u32). *)
Definition header_typed (h : header) : Prop :=
  0 <= h_comp h <= 7 /\ 0 <= h_nops h < 2 ^ 32 /\ 0 <= h_nadd h < 2 ^ 32 /\ 0 <= h_osize h < 2 ^ 32.

(** An input section the writer is meant for: typed values, literals of at most 65535 bytes and, in builds with overflow
    checks, no pair of consecutive copy addresses exactly 2^63 apart. *)
Definition section_in (m : mode) (s : list op * header) : Prop :=
  Forall op_typed (fst s) /\ Forall (fun o => add_len o <= 65535) (fst s) /\ header_typed (snd s) /\
  (m = Release \/ deltas_ok 0 0 (fst s)).
(** Sections whose operations are stored as they are (algorithms 1..3 are the specified compressions). *)
Definition plain (h : header) : Prop := h_comp h = 0 \/ 4 <= h_comp h <= 7.
