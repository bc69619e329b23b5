(** Model of smdiff-encoder/src/src_matcher.rs. *)
From Verif Require Import Base Spec MHasher MHashmap MTrgtMatcher.

(** SrcMatcher, lines 12-26. (cur_window_end is always 0: nothing assigns it.) *)
Record src_matcher := mkSM {
  sm_step : Z; sm_hash : Z; sm_pos : Z; sm_max : Z; sm_table : table;
  sm_src_len : Z; sm_trgt_len : Z; sm_half : Z; sm_max_end : Z; sm_win_end : Z; sm_next : Z; sm_max_match : Z
}.
Definition sm_set_table (s : src_matcher) (t : table) : src_matcher :=
  mkSM (sm_step s) (sm_hash s) (sm_pos s) (sm_max s) t (sm_src_len s) (sm_trgt_len s) (sm_half s) (sm_max_end s) (sm_win_end s) (sm_next s) (sm_max_match s).
Definition sm_set_next (s : src_matcher) (n : Z) : src_matcher :=
  mkSM (sm_step s) (sm_hash s) (sm_pos s) (sm_max s) (sm_table s) (sm_src_len s) (sm_trgt_len s) (sm_half s) (sm_max_end s) (sm_win_end s) n (sm_max_match s).
Definition sm_set_fwd (s : src_matcher) (hash pos : Z) : src_matcher :=
  mkSM (sm_step s) hash pos (sm_max s) (sm_table s) (sm_src_len s) (sm_trgt_len s) (sm_half s) (sm_max_end s) (sm_win_end s) (sm_next s) (sm_max_match s).

(** extend_src_match, lines 208-233 *)
Definition extend_src_match (m : mode) (src : list Z) (ss : Z) (trgt : list Z) (ts : Z) : res (option (Z * Z)) :=
  do a <- slice src ss (ss + 9);
  do b <- slice trgt ts (ts + 9);
  if negb (list_eqb a b) then Ok None else
  let k := Z.min ss ts - 1 in
  let pre := lcp (take k (rev (take ss src))) (take k (rev (take ts trgt))) in
  do src_remain <- usub m (zlen src) (ss + 9);
  do trgt_remain <- usub m (zlen trgt) (ts + 9);
  let n := Z.min src_remain trgt_remain in
  let post := lcp (sub src (ss + 9) n) (sub trgt (ts + 9) n) in
  Ok (Some (pre, post)).

(** find_best_src_match, lines 31-39 *)
Definition find_best_src_match (m : mode) (s : src_matcher) (src trgt : list Z) : res (option (Z * Z * Z)) :=
  do tp <- table_get (sm_table s) (sm_hash s);
  match tp with
  | None => Ok None
  | Some p =>
      let sp := p * sm_step s in
      do r <- extend_src_match m src sp trgt (sm_pos s);
      match r with
      | Some (pre, post) => Ok (Some (sp, pre, post + 9))
      | None => Ok None
      end
  end.

(** store and abs_to_table_pos, lines 45-61 *)
Definition src_store (m : mode) (s : src_matcher) (hash abs_pos : Z) : res src_matcher :=
  do _ <- debug_assert_ m (abs_pos mod sm_step s =? 0);
  do (t, _) <- table_insert (sm_table s) hash (abs_pos / sm_step s);
  Ok (sm_set_table s t).

(** align, lines 202-204 *)
Definition align (pos step : Z) : Z := pos - pos mod step.

(** calculate_window_range, lines 247-285. The product is a usize. *)
Definition window_range (m : mode) (s : src_matcher) (cur : Z) : res (option (Z * Z)) :=
  if cur <? sm_half s then Ok (Some (0, Z.min (2 * sm_half s) (sm_max_end s)))
  else if sm_win_end s >=? sm_max_end s then Ok None
  else
    do prod <- arith m to_u64 (cur * sm_src_len s);
    let scaled_end := align (Z.min (prod / sm_trgt_len s + sm_half s) (sm_max_end s)) (sm_step s) in
    if (scaled_end <=? sm_win_end s) || (scaled_end <=? sm_max_match s) then Ok None
    else
      let max_diff_start := Z.max 0 (scaled_end - 2 * sm_half s) in
      Ok (Some (align (Z.max (Z.max (sm_win_end s) (sm_max_match s)) max_diff_start) (sm_step s), scaled_end)).

(** The two hashing loops of add_start_positions_to_matcher, lines 93-96 and 100-105, over positions in descending
    order; [n] positions (steps) are left, the next one is [lo + (n-1) * step], resp. [lo + n - 1]. *)
Fixpoint hash_steps (n : nat) (m : mode) (s : src_matcher) (src : list Z) (lo : Z) : res src_matcher :=
  match n with
  | O => Ok s
  | S k =>
      let pos := lo + Z.of_nat k * sm_step s in
      do w <- slice src pos (pos + 9);
      do s <- src_store m s (calculate_large_checksum w) pos;
      hash_steps k m s src lo
  end.
Fixpoint hash_roll (n : nat) (m : mode) (s : src_matcher) (src : list Z) (lo hash : Z) : res src_matcher :=
  match n with
  | O => Ok s
  | S k =>
      let pos := lo + Z.of_nat k in
      do old <- idx src (pos + 9);
      do new <- idx src pos;
      let hash := update_large_checksum_bwd hash old new in
      do s <- (if pos mod sm_step s =? 0 then src_store m s hash pos else Ok s);
      hash_roll k m s src lo hash
  end.
Definition USIZE_MAX := 2 ^ 64 - 1.
(** add_start_positions_to_matcher, lines 68-116. The number of steps in [lo..hi] step_by is the ceiling of the quotient. *)
Definition add_start_positions (m : mode) (s : src_matcher) (cur : Z) (src : list Z) : res src_matcher :=
  if cur <? sm_next s then Ok s else
  do r <- window_range m s cur;
  match r with
  | None => Ok s
  | Some (lo, hi) =>
      do _ <- debug_assert_ m (lo mod sm_step s =? 0);
      let s := sm_set_next s (if hi >=? sm_max_end s then USIZE_MAX else cur + sm_half s) in
      if sm_step s >=? 9 then
        hash_steps (Z.to_nat ((hi - lo + sm_step s - 1) / sm_step s)) m s src lo
      else
        let last := align (Z.max 0 (hi - 9)) (sm_step s) in
        do w <- slice src last hi;
        hash_roll (Z.to_nat (last - lo)) m s src lo (calculate_large_checksum w)
  end.

(** lines 117-133 *)
Definition DEFAULT_SRC_WIN_SIZE := 2 ^ 26.
Definition MIN_SRC_WIN_SIZE := 2 ^ 20.
Record src_config := mkSC { sc_step : Z; sc_win : option Z }.
(** SrcMatcherConfig::build with make_inner_config, lines 155-198 *)
Definition src_build (m : mode) (c : src_config) (src : list Z) (start_pos : Z) (trgt : list Z) : res src_matcher :=
  let step := Z.max (sc_step c) 1 in
  do win <- match sc_win c with
            | Some n => do p <- next_power_of_two m n; Ok (Z.max p MIN_SRC_WIN_SIZE)
            | None => Ok DEFAULT_SRC_WIN_SIZE
            end;
  let src_len := zlen src in
  let max_end := align (Z.max 0 (src_len - 9)) step in
  let max_fwd := Z.max 0 (zlen trgt - 9) in
  do (hash, pos) <- (if start_pos <? max_fwd
                     then do w <- slice trgt start_pos (start_pos + 9); Ok (calculate_large_checksum w, start_pos)
                     else Ok (0, max_fwd));
  do p <- next_power_of_two m src_len;
  do tb <- table_new m (Z.min (Z.shiftr p 1) win / step) false;
  let s := mkSM step hash pos max_fwd tb src_len (zlen trgt) (Z.shiftr win 1) max_end 0 0 start_pos in
  add_start_positions m s start_pos src.
