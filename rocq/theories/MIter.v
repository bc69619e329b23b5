(** The operation buffers: read_ops_no_comp and read_section with the caller's [op_buffer] (smdiff-reader/src/lib.rs:68-126), and the two section
    iterators with their state (smdiff-reader/src/lib.rs:199-256, smdiff-decoder/src/reader.rs:11-100). MReader.v and MDecoder.v model the same code
    with an empty buffer and without iterator; T80 connects them. Buffers are shown after errors too; where the byte source stands after an error is not modelled. *)
From Verif Require Import Base Spec MCommon MWriter MReader MDecoder.

(** The [?] operator with mutable state [s]. *)
Definition try {S A B} (s : S) (r : res A) (k : A -> S * res B) : S * res B :=
  match r with Ok a => k a | Err e => (s, Err e) | Panic => (s, Panic) | Diverge => (s, Diverge) end.

(** The loops of lib.rs:80-89 and 105-109. State: op_buffer, header.num_add_bytes, add_idxs; [i] is the loop variable, [offset] is buffer_offset. *)
Fixpoint buf_loop (fuel : nat) (m : mode) (f : format) (offset n i d_addr o_addr cs : Z) (bs : list Z) (buf : list op) (nadd : Z) (idxs : list Z)
  : (list op * Z * list Z) * res (Z * list Z) :=
  if n <=? i then (buf, nadd, idxs, Ok (cs, bs)) else
  match fuel with
  | O => (buf, nadd, idxs, Diverge)
  | S k =>
      try (buf, nadd, idxs) (read_op m d_addr o_addr (negb (is_segregated f)) bs) (fun '(o, d_addr, o_addr, bs) =>
      try (buf, nadd, idxs) (arith m to_u32 (cs + oal o)) (fun cs =>
      if is_segregated f && is_add o then
        try (buf, nadd, idxs) (arith m to_u32 (nadd + oal o)) (fun nadd =>
        buf_loop k m f offset n (i + 1) d_addr o_addr cs bs (buf ++ [o]) nadd (idxs ++ [offset + i]))
      else buf_loop k m f offset n (i + 1) d_addr o_addr cs bs (buf ++ [o]) nadd idxs))
  end.
(** [op_buffer[i] = o] *)
Definition put (buf : list op) (i : Z) (o : op) : list op := take i buf ++ [o] ++ drop (i + 1) buf.
(** lib.rs:95-100: [get_mut(i).unwrap()] panics outside the buffer; [read_exact] that fails leaves unspecified bytes in the literal (here: unchanged). *)
Fixpoint buf_fill (idxs : list Z) (bs : list Z) (buf : list op) : list op * res (list Z) :=
  match idxs with
  | [] => (buf, Ok bs)
  | i :: rest =>
      try buf (idx buf i) (fun o =>
      match o with
      | Add z => try buf (read_exact (zlen z) bs) (fun '(b, bs) => buf_fill rest bs (put buf i (Add b)))
      | _ => buf_fill rest bs buf
      end)
  end.
(** read_ops_no_comp, lib.rs:68-116: the buffer and the header afterwards, and the unread bytes or the error. *)
Definition read_ops_buf (m : mode) (h : header) (bs : list Z) (buf : list op) : (list op * header) * res (list Z) :=
  let '(buf, nadd, idxs, r) := buf_loop (S (length bs)) m (h_format h) (zlen buf) (h_nops h) 0 0 0 0 bs buf (h_nadd h) [] in
  let h := match h_format h with Segregated => set_nadd h nadd | Interleaved => h end in
  try (buf, h) r (fun '(cs, bs) =>
  if negb (cs =? h_osize h) then ((buf, h), Err InvalidData) else
  match h_format h with
  | Segregated => let '(buf, r) := buf_fill idxs bs buf in ((buf, h), r)
  | Interleaved => ((buf, h), Ok bs)
  end).
(** read_section, lib.rs:121-126 *)
Definition read_section_buf (m : mode) (bs : list Z) (buf : list op) : list op * res (header * list Z) :=
  try buf (read_section_header m bs) (fun '(h, bs) =>
  let '(buf, h, r) := read_ops_buf m h bs buf in
  try buf r (fun bs => (buf, Ok (h, bs)))).

(** A call of an iterator. *)
Inductive call := Borrowed | Owned.

(** SectionIterator of smdiff-reader, lib.rs:199-256 *)
Record riter := mkRI { ri_source : list Z; ri_done : bool; ri_buf : list op }.
Definition ri_new (bs : list Z) : riter := mkRI bs false [].
(** next_borrowed (215-229), next_owned (231-244): a fresh buffer, [self.op_buffer] is left alone. *)
Definition ri_next (m : mode) (c : call) (it : riter) : res (option (list op * header) * riter) :=
  if ri_done it then Ok (None, it) else
  match c with
  | Borrowed =>
      let '(buf, r) := read_section_buf m (ri_source it) [] in
      do (h, bs) <- r; Ok (Some (buf, h), mkRI bs (negb (h_more h)) buf)
  | Owned =>
      let '(buf, r) := read_section_buf m (ri_source it) [] in
      do (h, bs) <- r; Ok (Some (buf, h), mkRI bs (negb (h_more h)) (ri_buf it))
  end.

(** SectionIterator of smdiff-decoder, reader.rs:11-16: also a buffer for decompressed data *)
Record diter := mkDI { di_source : list Z; di_done : bool; di_win : list Z; di_ops : list op }.
Definition di_new (bs : list Z) : diter := mkDI bs false [] [].
(** read_ops, reader.rs:67-92: clears both buffers; returns win_data, ops, header, unread bytes *)
Definition di_read_ops (m : mode) (cd : codecs) (h : header) (bs : list Z) : (list Z * list op) * res (header * list Z) :=
  if h_comp h =? 1 then
    let '(s, r) := apply_no_sec_comp m None bs (mkSink [] 0) in
    try (sbuf s, []) r (fun rest =>
    let '(ops, h, r) := read_ops_buf m h (sbuf s) [] in
    try (sbuf s, ops) r (fun _ => ((sbuf s, ops), Ok (h, rest))))
  else if h_comp h =? 2 then
    try ([], []) (zstd_dec cd bs) (fun '(dec, rest) =>
    let '(ops, h, r) := read_ops_buf m h dec [] in
    try ([], ops) r (fun _ => (([], ops), Ok (h, rest))))
  else if h_comp h =? 3 then
    try ([], []) (brotli_dec cd bs) (fun '(dec, rest) =>
    let '(ops, h, r) := read_ops_buf m h dec [] in
    try ([], ops) r (fun _ => (([], ops), Ok (h, rest))))
  else
    let '(ops, h, r) := read_ops_buf m h bs [] in
    try ([], ops) r (fun rest => (([], ops), Ok (h, rest))).
(** read_header (56-66), next_borrowed (29-41), next_owned (43-55): the latter takes the buffer and leaves an empty one. *)
Definition di_next (m : mode) (cd : codecs) (c : call) (it : diter) : res (option (list op * header) * diter) :=
  if di_done it then Ok (None, it) else
  do (h, bs) <- read_section_header m (di_source it);
  let '(win, ops, r) := di_read_ops m cd h bs in
  do (h, rest) <- r;
  Ok (Some (ops, h), mkDI rest (negb (h_more h)) win (match c with Borrowed => ops | Owned => [] end)).

(** apply_patch, smdiff-decoder/src/lib.rs:23-32: [while let Some(res) = reader.next_borrowed()]. One round more than there are sections; fuel as in MDecoder.v. *)
Fixpoint apply_iter (fuel : nat) (m : mode) (cd : codecs) (dict : option (list Z)) (it : diter) (s : sink) (pos : Z) : sink * res unit :=
  match fuel with
  | O => (s, Diverge)
  | S k =>
      try s (di_next m cd Borrowed it) (fun '(x, it) =>
      match x with
      | None => (s, Ok tt)
      | Some (ops, _) =>
          let '(s, pos, r) := apply_ops dict ops s pos in
          try s r (fun _ => apply_iter k m cd dict it s pos)
      end)
  end.
Definition apply_patch_iter (m : mode) (cd : codecs) (patch : list Z) (dict : option (list Z)) (s : sink) : sink * res unit :=
  apply_iter (S (S (length patch))) m cd dict (di_new patch) s 0.
