(** Model of what differs on targets with 32-bit pointers ([usize] is 32 bits wide): the constants of hasher.rs selected by
    [cfg(target_pointer_width = "32")], the hash table of the source matcher, the source window of src_matcher.rs and the output position of
    the decoder (a [usize]). Everything else is modelled for 64-bit pointers only. The code is otherwise the same, so the definitions below repeat
    those of MHasher, MHashmap, MSrcMatcher and MDecoder with 32-bit arithmetic. *)
From Verif Require Import Base Spec MCommon MWriter MReader MDecoder MHasher MHashmap MTrgtMatcher MSrcMatcher.

(** ** smdiff-encoder/src/hasher.rs *)
(** lines 9, 14, 20, 36-46 *)
Definition MOD_INV32 := 851723965.
Definition HASH_MULT32 := 1597334677.
Definition FIRST_BYTE_WEIGHT32 := 1614047349.
Definition POWERS32 := [785718369; 2237430173; 2226829033; 2554380293; 438510001; 1152009645; 1664532153; 1597334677; 1].
(** calculate_large_checksum, lines 49-55 *)
Definition large_checksum32 (data : list Z) : Z :=
  fold_left (fun acc bp => to_u32 (acc + to_u32 (snd bp * fst bp))) (combine data POWERS32) 0.
(** update_large_checksum_fwd, lines 58-62 *)
Definition large_fwd32 (c old new : Z) : Z :=
  to_u32 (to_u32 (to_u32 (HASH_MULT32 * c) - to_u32 (FIRST_BYTE_WEIGHT32 * old)) + new).
(** update_large_checksum_bwd, lines 65-69 *)
Definition large_bwd32 (c old new : Z) : Z :=
  to_u32 (to_u32 (to_u32 (c - old) + to_u32 (FIRST_BYTE_WEIGHT32 * new)) * MOD_INV32).

(** ** smdiff-encoder/src/hashmap.rs *)
(** [usize::next_power_of_two] *)
Definition next_power_of_two32 (m : mode) (n : Z) : res Z :=
  if n <=? 1 then Ok 1
  else if n >? 2 ^ 31 then match m with Debug => Panic | Release => Ok 0 end
  else Ok (2 ^ Z.log2_up n).
(** determine_hash_table_size_bits, lines 111-114 *)
Definition table_bits32 (m : mode) (slots : Z) : res Z :=
  do n <- arith m to_u32 (slots + 1);
  do p <- next_power_of_two32 m n;
  let tz := if p =? 0 then 32 else Z.log2 p in
  Ok (Z.min (Z.max tz 3) 32 - 1).
(** BasicHashTable::new, lines 62-80: [size_of::<usize>()] is 4, so both settings of interpret_hash_as_32_bit shift by 32 - bits. *)
Definition table_new32 (m : mode) (min_capacity : Z) : res table :=
  do bits <- table_bits32 m min_capacity;
  let size := 2 ^ bits in
  do shift <- arith m to_u32 (32 - bits);
  Ok (mkTable shift (size - 1) size (fun _ => empty_bucket)).

(** ** smdiff-encoder/src/src_matcher.rs *)
(** calculate_window_range, lines 247-285 *)
Definition window_range32 (m : mode) (s : src_matcher) (cur : Z) : res (option (Z * Z)) :=
  if cur <? sm_half s then Ok (Some (0, Z.min (2 * sm_half s) (sm_max_end s)))
  else if sm_win_end s >=? sm_max_end s then Ok None
  else
    do prod <- arith m to_u32 (cur * sm_src_len s);
    do sum <- arith m to_u32 (prod / sm_trgt_len s + sm_half s);
    let scaled_end := align (Z.min sum (sm_max_end s)) (sm_step s) in
    if (scaled_end <=? sm_win_end s) || (scaled_end <=? sm_max_match s) then Ok None
    else
      let max_diff_start := Z.max 0 (scaled_end - 2 * sm_half s) in
      Ok (Some (align (Z.max (Z.max (sm_win_end s) (sm_max_match s)) max_diff_start) (sm_step s), scaled_end)).
(** The hashing loops of add_start_positions_to_matcher, lines 93-96 and 100-105 *)
Fixpoint hash_steps32 (n : nat) (m : mode) (s : src_matcher) (src : list Z) (lo : Z) : res src_matcher :=
  match n with
  | O => Ok s
  | S k =>
      let pos := lo + Z.of_nat k * sm_step s in
      do w <- slice src pos (pos + 9);
      do s <- src_store m s (large_checksum32 w) pos;
      hash_steps32 k m s src lo
  end.
Fixpoint hash_roll32 (n : nat) (m : mode) (s : src_matcher) (src : list Z) (lo hash : Z) : res src_matcher :=
  match n with
  | O => Ok s
  | S k =>
      let pos := lo + Z.of_nat k in
      do old <- idx src (pos + 9);
      do new <- idx src pos;
      let hash := large_bwd32 hash old new in
      do s <- (if pos mod sm_step s =? 0 then src_store m s hash pos else Ok s);
      hash_roll32 k m s src lo hash
  end.
Definition USIZE_MAX32 := 2 ^ 32 - 1.
(** add_start_positions_to_matcher, lines 68-116 *)
Definition add_start_positions32 (m : mode) (s : src_matcher) (cur : Z) (src : list Z) : res src_matcher :=
  if cur <? sm_next s then Ok s else
  do r <- window_range32 m s cur;
  match r with
  | None => Ok s
  | Some (lo, hi) =>
      do _ <- debug_assert_ m (lo mod sm_step s =? 0);
      do next <- (if hi >=? sm_max_end s then Ok USIZE_MAX32 else arith m to_u32 (cur + sm_half s));
      let s := sm_set_next s next in
      if sm_step s >=? 9 then
        hash_steps32 (Z.to_nat ((hi - lo + sm_step s - 1) / sm_step s)) m s src lo
      else
        let last := align (Z.max 0 (hi - 9)) (sm_step s) in
        do w <- slice src last hi;
        hash_roll32 (Z.to_nat (last - lo)) m s src lo (large_checksum32 w)
  end.
(** SrcMatcherConfig::build with make_inner_config, lines 155-198 *)
Definition src_build32 (m : mode) (c : src_config) (src : list Z) (start_pos : Z) (trgt : list Z) : res src_matcher :=
  let step := Z.max (sc_step c) 1 in
  do win <- match sc_win c with
            | Some n => do p <- next_power_of_two32 m n; Ok (Z.max p MIN_SRC_WIN_SIZE)
            | None => Ok DEFAULT_SRC_WIN_SIZE
            end;
  let src_len := zlen src in
  let max_end := align (Z.max 0 (src_len - 9)) step in
  let max_fwd := Z.max 0 (zlen trgt - 9) in
  do (hash, pos) <- (if start_pos <? max_fwd
                     then do w <- slice trgt start_pos (start_pos + 9); Ok (large_checksum32 w, start_pos)
                     else Ok (0, max_fwd));
  do p <- next_power_of_two32 m src_len;
  do tb <- table_new32 m (Z.min (Z.shiftr p 1) win / step);
  let s := mkSM step hash pos max_fwd tb src_len (zlen trgt) (Z.shiftr win 1) max_end 0 0 start_pos in
  add_start_positions32 m s start_pos src.

(** ** smdiff-decoder/src/lib.rs *)
(** [*cur_o_pos += len], lines 63, 77, 86, 96: a [usize] of 32 bits. In a build with overflow checks an overflow panics after the bytes were written. *)
Definition pos_add (m : mode) (pos n : Z) : res Z := arith m to_u32 (pos + n).
(** apply_ops, lines 51-101; the sink is a file of any size, or a Vec (see [apply32_vec]). *)
Fixpoint apply_ops_loop32 (m : mode) (dict : option (list Z)) (ops : list op) (s : sink) (pos : Z) : sink * Z * res unit :=
  match ops with
  | [] => (s, pos, Ok tt)
  | o :: rest =>
      let go s n := match pos_add m pos n with
                    | Ok pos => apply_ops_loop32 m dict rest s pos
                    | Err e => (s, pos, Err e)
                    | Panic => (s, pos, Panic)
                    | Diverge => (s, pos, Diverge)
                    end in
      match o with
      | Add bs => go (sink_write s bs) (zlen bs)
      | Copy Dict addr len =>
          match dict with
          | None => (s, pos, Panic)
          | Some d =>
              match read_at d addr len with
              | Ok b => go (sink_write s b) len
              | Err e => (s, pos, Err e)
              | Panic => (s, pos, Panic)
              | Diverge => (s, pos, Diverge)
              end
          end
      | Copy Output addr len =>
          match read_at (sbuf s) addr len with
          | Ok b => go (sink_write (sink_seek s pos) b) len
          | Err e => (s, pos, Err e)
          | Panic => (s, pos, Panic)
          | Diverge => (s, pos, Diverge)
          end
      | Run b len => go (sink_write s (rep b len)) len
      end
  end.
Definition apply_ops32 (m : mode) (dict : option (list Z)) (ops : list op) (s : sink) (pos : Z) : sink * Z * res unit :=
  apply_ops_loop32 m dict ops (sink_seek s pos) pos.
(** The section loops, lines 27-30 and 39-43 *)
Fixpoint apply_loop32 (m : mode) (next : list Z -> res (list op * header * list Z)) (fuel : nat) (dict : option (list Z))
  (bs : list Z) (s : sink) (pos : Z) : sink * res (list Z) :=
  match fuel with
  | O => (s, Diverge)
  | S k =>
      match next bs with
      | Ok (ops, h, rest) =>
          match apply_ops32 m dict ops s pos with
          | (s', pos', Ok _) =>
              if h_more h then apply_loop32 m next k dict rest s' pos' else (s', Ok rest)
          | (s', _, Err e) => (s', Err e)
          | (s', _, Panic) => (s', Panic)
          | (s', _, Diverge) => (s', Diverge)
          end
      | Err e => (s, Err e)
      | Panic => (s, Panic)
      | Diverge => (s, Diverge)
      end
  end.
(** apply_no_sec_comp into a [Vec<u8>], lines 35-45 and reader.rs:66-75: a Vec holds at most isize::MAX = 2^31 - 1 bytes, growing it beyond
    panics. Simplification: the writes before the one that overflows are not replayed, the result is just the panic (nothing else observes that Vec). *)
Definition apply_no_sec_comp32 (m : mode) (patch : list Z) : res (list Z * list Z) :=
  match apply_loop32 m (read_section m) (S (length patch)) None patch (mkSink [] 0) 0 with
  | (s, r) => if zlen (sbuf s) >=? 2 ^ 31 then Panic else do rest <- r; Ok (sbuf s, rest)
  end.
(** SectionIterator::read_header and read_ops, reader.rs:56-89 *)
Definition next_section32 (m : mode) (cd : codecs) (bs : list Z) : res (list op * header * list Z) :=
  do (h, bs) <- read_section_header m bs;
  if h_comp h =? 1 then
    do (dec, rest) <- apply_no_sec_comp32 m bs;
    do (ops, h, _) <- read_ops_no_comp m h dec; Ok (ops, h, rest)
  else if h_comp h =? 2 then
    do (dec, rest) <- zstd_dec cd bs;
    do (ops, h, _) <- read_ops_no_comp m h dec; Ok (ops, h, rest)
  else if h_comp h =? 3 then
    do (dec, rest) <- brotli_dec cd bs;
    do (ops, h, _) <- read_ops_no_comp m h dec; Ok (ops, h, rest)
  else read_ops_no_comp m h bs.
(** apply_patch, lib.rs:23-32 *)
Definition apply_patch32 (m : mode) (cd : codecs) (patch : list Z) (dict : option (list Z)) (s : sink) : sink * res unit :=
  let '(s', r) := apply_loop32 m (next_section32 m cd) (S (length patch)) dict patch s 0 in
  (s', do _ <- r; Ok tt).
