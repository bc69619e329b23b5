(** encode and apply_patch over any files: [std::io::Read] may return fewer bytes than asked for, [std::io::Write] may take fewer than offered, both may be interrupted; the source and the
    sink of apply_patch are also [std::io::Seek]. smdiff-encoder/src/lib.rs:218-263 and smdiff-decoder/src/lib.rs:23-101, call by call. The readers are those of MStream.v. *)
From Verif Require Import Base Spec SpecEnc MCommon MWriter MReader MDecoder MOpMaker MTrgtMatcher MSrcMatcher MEncInner MEncode MStream.

(** [Read + Seek]: [sk_seek p] is [seek(SeekFrom::Start(p))]. *)
Record seekable (St : Type) := mkSeekable { sk_reader : reader St; sk_seek : Z -> St -> res St }.
Arguments sk_reader {St}. Arguments sk_seek {St}. Arguments mkSeekable {St}.
(** The outcome of one call of [Write::write]: so many bytes were taken, [ErrorKind::Interrupted], or another error. *)
Inductive put (St : Type) := Put (n : Z) (s : St) | PutAgain (s : St) | PutFails (e : err).
Arguments Put {St}. Arguments PutAgain {St}. Arguments PutFails {St}.
(** [Read + Write + Seek]. [fi_calls bs s]: more calls than these are not made to write [bs] (only used as fuel). *)
Record file (St : Type) := mkFile { fi_seekable : seekable St; fi_write : list Z -> St -> put St; fi_calls : list Z -> St -> nat }.
Arguments fi_seekable {St}. Arguments fi_write {St}. Arguments fi_calls {St}. Arguments mkFile {St}.

(** [Read::read_exact], as in MStream.v, also giving the state after a failure. *)
Fixpoint f_exact_loop {St} (R : reader St) (fuel : nat) (n : Z) (s : St) : St * res (list Z) :=
  if n <=? 0 then (s, Ok []) else
  match fuel with
  | O => (s, Diverge)
  | S k =>
      match rd_read R n s with
      | Got [] s => (s, Err EOF)
      | Got bs s => let '(s, r) := f_exact_loop R k (n - zlen bs) s in (s, do x <- r; Ok (bs ++ x))
      | Again s => f_exact_loop R k n s
      | Fails e => (s, Err e)
      end
  end.
Definition f_read_exact {St} (R : reader St) (n : Z) (s : St) : St * res (list Z) := f_exact_loop R (S (rd_most R s)) n s.
(** [Write::write_all] (the standard library's default): writes until everything is written; nothing taken is an error; interrupted writes are repeated. (The error's kind, WriteZero, is not
    distinguished.) *)
Fixpoint f_all_loop {St} (F : file St) (fuel : nat) (bs : list Z) (s : St) : St * res unit :=
  match bs with
  | [] => (s, Ok tt)
  | _ =>
      match fuel with
      | O => (s, Diverge)
      | S k =>
          match fi_write F bs s with
          | Put n s => if n <=? 0 then (s, Err EOF) else f_all_loop F k (drop n bs) s
          | PutAgain s => f_all_loop F k bs s
          | PutFails e => (s, Err e)
          end
      end
  end.
Definition f_write_all {St} (F : file St) (bs : list Z) (s : St) : St * res unit := f_all_loop F (S (fi_calls F bs s)) bs s.
(** [seek], with the state *)
Definition f_seek {St} (K : seekable St) (p : Z) (s : St) : St * res unit :=
  match sk_seek K p s with Ok s' => (s', Ok tt) | Err e => (s, Err e) | Panic => (s, Panic) | Diverge => (s, Diverge) end.
(** [?] *)
Definition orelse {St A B} (x : St * res A) (bad : St -> res unit -> B) (k : St -> A -> B) : B :=
  match x with (s, Ok a) => k s a | (s, Err e) => bad s (Err e) | (s, Panic) => bad s Panic | (s, Diverge) => bad s Diverge end.

(** The loop of apply_ops, smdiff-decoder/src/lib.rs:58-99: source, sink, cur_o_pos, outcome. *)
Fixpoint f_ops {Sd So} (D : seekable Sd) (F : file So) (src : option Sd) (ops : list op) (s : So) (pos : Z) : option Sd * So * Z * res unit :=
  match ops with
  | [] => (src, s, pos, Ok tt)
  | o :: rest =>
      match o with
      | Add bs => orelse (f_write_all F bs s) (fun s r => (src, s, pos, r)) (fun s _ => f_ops D F src rest s (pos + zlen bs))
      | Copy Dict addr len =>
          match src with
          | None => (src, s, pos, Panic)
          | Some d =>
              orelse (f_seek D addr d) (fun d r => (Some d, s, pos, r)) (fun d _ =>
              orelse (f_read_exact (sk_reader D) len d) (fun d r => (Some d, s, pos, r)) (fun d b =>
              orelse (f_write_all F b s) (fun s r => (Some d, s, pos, r)) (fun s _ => f_ops D F (Some d) rest s (pos + len))))
          end
      | Copy Output addr len =>
          orelse (f_seek (fi_seekable F) addr s) (fun s r => (src, s, pos, r)) (fun s _ =>
          orelse (f_read_exact (sk_reader (fi_seekable F)) len s) (fun s r => (src, s, pos, r)) (fun s b =>
          orelse (f_seek (fi_seekable F) pos s) (fun s r => (src, s, pos, r)) (fun s _ =>
          orelse (f_write_all F b s) (fun s r => (src, s, pos, r)) (fun s _ => f_ops D F src rest s (pos + len)))))
      | Run b len => orelse (f_write_all F (rep b len) s) (fun s r => (src, s, pos, r)) (fun s _ => f_ops D F src rest s (pos + len))
      end
  end.
(** apply_ops, lib.rs:51-101; the seek of line 54. *)
Definition f_apply_ops {Sd So} (D : seekable Sd) (F : file So) (src : option Sd) (ops : list op) (s : So) (pos : Z) : option Sd * So * Z * res unit :=
  orelse (f_seek (fi_seekable F) pos s) (fun s r => (src, s, pos, r)) (fun s _ => f_ops D F src ops s pos).
(** The loop of apply_patch, lib.rs:27-30. The patch is read through a BufReader (MStream.v). *)
Fixpoint f_patch_loop {Sp Sd So} (P : reader Sp) (D : seekable Sd) (F : file So) (m : mode) (xd : Z -> Sp -> res (list Z * Sp)) (fuel : nat) (src : option Sd) (p : Sp) (s : So) (pos : Z)
  : option Sd * So * res unit :=
  match fuel with
  | O => (src, s, Diverge)
  | S k =>
      match g_next_section P m xd p with
      | Ok (ops, h, p) =>
          match f_apply_ops D F src ops s pos with
          | (src, s, pos, Ok _) => if h_more h then f_patch_loop P D F m xd k src p s pos else (src, s, Ok tt)
          | (src, s, _, r) => (src, s, r)
          end
      | Err e => (src, s, Err e)
      | Panic => (src, s, Panic)
      | Diverge => (src, s, Diverge)
      end
  end.
(** apply_patch, lib.rs:23-32: source and sink afterwards, outcome. *)
Definition f_apply_patch {Sp Sd So} (P : reader Sp) (D : seekable Sd) (F : file So) (m : mode) (xd : Z -> list Z * Sp -> res (list Z * (list Z * Sp))) (patch : Sp) (src : option Sd) (s : So)
  : option Sd * So * res unit :=
  f_patch_loop (buffered P) D F m xd (S (rd_most (buffered P) ([], patch))) src ([], patch) s 0.

(** [Read::read_to_end]: reads until a call gives nothing; interrupted reads are repeated. [ask have]: the size of the request after [have] has been read (the standard library adapts it). *)
Fixpoint f_to_end {St} (R : reader St) (ask : list Z -> Z) (fuel : nat) (have : list Z) (s : St) : St * res (list Z) :=
  match fuel with
  | O => (s, Diverge)
  | S k =>
      match rd_read R (ask have) s with
      | Got [] s => (s, Ok have)
      | Got bs s => f_to_end R ask k (have ++ bs) s
      | Again s => f_to_end R ask k have s
      | Fails e => (s, Err e)
      end
  end.
Definition f_read_to_end {St} (R : reader St) (ask : list Z -> Z) (s : St) : St * res (list Z) := f_to_end R ask (S (rd_most R s)) [] s.
(** encode, smdiff-encoder/src/lib.rs:218-263: lines 220-226 read the inputs. The writer is a [Vec] (other writers: MWFault.v). *)
Definition f_encode {Sd St} (RD : reader Sd) (RT : reader St) (ask : list Z -> Z) (m : mode) (cd : codecs) (c : config) (dict : option Sd) (output : St) : W unit :=
  match (match dict with Some d => snd (f_read_to_end RD ask d) | None => Ok [] end) with
  | Ok src =>
      match snd (f_read_to_end RT ask output) with
      | Ok trgt => encode_with m (section_writer m cd (cf_comp c)) (inner_of c) (cf_format c) (cf_segment c) src trgt
      | Err e => ([], Err e) | Panic => ([], Panic) | Diverge => ([], Diverge)
      end
  | Err e => ([], Err e) | Panic => ([], Panic) | Diverge => ([], Diverge)
  end.
