(** What a VCDIFF stream means (RFC 3284), and what the vcdiff-reader crate promises about its messages. Definitions only; nothing here is used by the model. *)
From Verif Require Import Base Spec MVcdiff.

(** COPY reads byte by byte from the string U, to whose end the bytes read are appended at once, so it may run past the end U had.
    [grow u p n]: U after [n] bytes were copied from position [p] on. *)
Fixpoint grow (u : list Z) (p : Z) (n : nat) : list Z :=
  match n with O => u | S k => grow (u ++ sub u p 1) (p + 1) k end.
(** Number of bytes an instruction appends. *)
Definition vlen (i : vinst) : Z :=
  match i with VAdd n _ => n | VRun n _ => n | VCopy (CopyQ n) _ _ _ => n | VCopy _ _ n _ => n end.
(** The string U = source segment ++ target window after an instruction. *)
Definition vstep (u : list Z) (i : vinst) : list Z :=
  match i with
  | VAdd n data => u ++ take n data
  | VRun n b => u ++ rep b n
  | VCopy _ p _ _ => grow u p (Z.to_nat (vlen i))
  end.
Definition is_u32 (n : Z) : Prop := 0 <= n < 2 ^ 32.
(** An instruction the reader returns when the source segment has length [seg] and U has length [len]: a copy is CopyS if it lies in the segment, CopyT if it lies in the
    window so far, CopyQ if it starts in the window and runs past its end. *)
Definition vinst_ok (seg len : Z) (i : vinst) : Prop :=
  match i with
  | VAdd n data => is_u32 n /\ n <= zlen data /\ Forall is_byte data
  | VRun n b => is_u32 n /\ is_byte b
  | VCopy CopyS p n n' => n' = n /\ is_u32 n /\ 0 <= p < seg /\ p + n <= seg
  | VCopy (CopyT start) p n n' => n' = n /\ is_u32 n /\ start = len /\ seg <= p /\ p + n <= len /\ is_u32 start
  | VCopy (CopyQ n) p nu _ => is_u32 n /\ is_u32 nu /\ seg <= p < len /\ nu - n = len - p
  end.
Definition insts (first : vinst) (second : option vinst) : list vinst := first :: match second with Some i => [i] | None => [] end.
(** Instructions of a message, one after the other, on U. *)
Inductive vsteps (seg : Z) : list Z -> list vinst -> list Z -> Prop :=
| vs_nil u : vsteps seg u [] u
| vs_cons u i r u' : vinst_ok seg (zlen u) i -> vsteps seg (vstep u i) r u' -> vsteps seg u (i :: r) u'.
(** The rest of a stream: inside a window with source segment [seg] that started at output length [zlen base], with output [base ++ win] so far; [Between]: outside. *)
Inductive vwhere := Between | Inside (seg win : list Z).
Inductive vstream (src : list Z) : list Z -> vwhere -> list vmsg -> list Z -> Prop :=
| vsm_eof out rest : vstream src out Between (VEof :: rest) out
| vsm_win_none out msgs out' sss : vstream src out (Inside [] []) msgs out' -> vstream src out Between (VWin None sss false :: msgs) out'
| vsm_win_src out msgs out' ssp sss : 0 <= ssp -> 0 <= sss -> ssp + sss <= zlen src -> vstream src out (Inside (sub src ssp sss) []) msgs out' ->
    vstream src out Between (VWin (Some ssp) (Some sss) false :: msgs) out'
| vsm_win_trgt out msgs out' ssp sss : 0 <= ssp -> 0 <= sss -> ssp + sss <= zlen out -> vstream src out (Inside (sub out ssp sss) []) msgs out' ->
    vstream src out Between (VWin (Some ssp) (Some sss) true :: msgs) out'
| vsm_inst out seg win i1 i2 win' msgs out' : vsteps (zlen seg) (seg ++ win) (insts i1 i2) (seg ++ win') ->
    vstream src out (Inside seg win') msgs out' -> vstream src out (Inside seg win) (VInst i1 i2 :: msgs) out'
| vsm_end out seg win msgs out' : vstream src (out ++ win) Between msgs out' -> vstream src out (Inside seg win) (VEndWin :: msgs) out'.
(** [msgs] is a valid stream that turns [src] into [out]. *)
Definition vcdiff_of (src : list Z) (msgs : list vmsg) (out : list Z) : Prop := vstream src [] Between msgs out.
(** A sequence copy with a period and a length of more than 65535 bytes. *)
Definition long_seq (i : vinst) : bool :=
  match i with VCopy (CopyQ n) _ nu _ => (65535 <? n) && (65535 <? nu - n) | _ => false end.
(** The instructions up to the end of the stream. *)
Fixpoint all_insts (msgs : list vmsg) : list vinst :=
  match msgs with VInst i1 i2 :: r => insts i1 i2 ++ all_insts r | VEof :: _ => [] | _ :: r => all_insts r | [] => [] end.
