(** Model of smdiff-encoder/src/trgt_matcher.rs. *)
From Verif Require Import Base Spec MHasher MHashmap.

(** Length of the common prefix ([take_while] over equal bytes, [count]). *)
Fixpoint lcp (a b : list Z) : Z :=
  match a, b with
  | x :: a', y :: b' => if x =? y then 1 + lcp a' b' else 0
  | _, _ => 0
  end.

(** TrgtMatcher, lines 5-13 *)
Record trgt_matcher := mkTM {
  tm_early : Z; tm_chain_check : Z; tm_hash : Z; tm_pos : Z; tm_max : Z; tm_table : table; tm_chain : chain_list
}.

(** The loop of find_best_trgt_match, lines 49-85. [once] is the table position not yet delivered by the iterator, [last]
    the state of the chain iterator. In every round the chain budget or [last] decreases (or [once] is used up) or the
    state repeats for ever: with fuel [budget + last + 2] running out means a real infinite loop. Left out: the i32 counters
    [_chain_len] and [_collisions] (lines 47-48, 54, 62), which nobody reads; with overflow checks they panic after 2^31
    candidates whose bytes do not match (more than any table of the default size holds). *)
Fixpoint find_trgt_loop (fuel : nat) (m : mode) (t : trgt_matcher) (trgt : list Z) (once : option Z) (last chain : Z)
  (best : option (Z * Z)) (best_len : Z) : res (option (Z * Z)) :=
  match fuel with
  | O => Diverge
  | S k =>
      if chain =? 0 then Ok best else
      do nxt <- match once with Some p => Ok (Some p) | None => chain_next m (tm_chain t) last (tm_pos t) (tm_hash t) end;
      match nxt with
      | None => Ok best
      | Some start =>
          let last := start in
          if negb (start + 4 <? tm_pos t) then find_trgt_loop k m t trgt None last chain best best_len else
          do a <- slice trgt start (start + 4);
          do b <- slice trgt (tm_pos t) (tm_pos t + 4);
          if negb (list_eqb a b) then find_trgt_loop k m t trgt None last chain best best_len else
          let match_end := start + 4 in
          let trgt_end := tm_pos t + 4 in
          do src_remain <- usub m (tm_pos t) match_end;
          do trgt_remain <- usub m (zlen trgt) trgt_end;
          let n := Z.min src_remain trgt_remain in
          let total := lcp (sub trgt match_end n) (sub trgt trgt_end n) + 4 in
          if total >? best_len then
            if total >=? tm_early t then Ok (Some (start, total))
            else find_trgt_loop k m t trgt None last (chain - 1) (Some (start, total)) total
          else find_trgt_loop k m t trgt None last (chain - 1) best best_len
      end
  end.
(** find_best_trgt_match, lines 40-95 *)
Definition find_best_trgt_match (m : mode) (t : trgt_matcher) (trgt : list Z) (min_match : Z) : res (option (Z * Z)) :=
  do tp <- table_get (tm_table t) (tm_hash t);
  match tp with
  | None => Ok None
  | Some p =>
      let chain := if min_match >? 4 then Z.max (tm_chain_check t / 4) 1 else tm_chain_check t in
      find_trgt_loop (Z.to_nat (chain + p + 2)) m t trgt (Some p) p chain None 0
  end.
(** store, lines 96-106 *)
Definition trgt_store (t : trgt_matcher) (hash pos : Z) : res trgt_matcher :=
  do (tb, r) <- table_insert (tm_table t) hash pos;
  do ch <- match r with
           | SetNew => Ok (tm_chain t)
           | SetSame prev => chain_insert (tm_chain t) hash pos prev
           | SetEvicted old_hash prev => chain_insert (tm_chain t) old_hash pos prev
           end;
  Ok (mkTM (tm_early t) (tm_chain_check t) (tm_hash t) (tm_pos t) (tm_max t) tb ch).

(** lines 113-128 *)
Definition DEFAULT_TRGT_WIN_SIZE := 2 ^ 23.
Definition DEFAULT_PREV_SIZE := 2 ^ 18.
Record trgt_config := mkTC { tc_early : Z; tc_chain_check : Z; tc_capacity : option Z }.

(** The prefill loop of build, lines 174-177; [n] positions are left. *)
Fixpoint trgt_prefill (n : nat) (t : trgt_matcher) (trgt : list Z) (hash pos : Z) : res trgt_matcher :=
  match n with
  | O => Ok t
  | S k =>
      do old <- idx trgt pos;
      do new <- idx trgt (pos + 4);
      let hash := update_small_checksum_fwd hash old new in
      do t <- trgt_store t hash (pos + 1);
      trgt_prefill k t trgt hash (pos + 1)
  end.
(** TrgtMatcherConfig::build, lines 149-180. (The capacity is also written back to the configuration, which is a
    clone private to one encode call.) *)
Definition trgt_build (m : mode) (c : trgt_config) (trgt : list Z) (start_pos : Z) : res trgt_matcher :=
  do eff <- usub m (zlen trgt) start_pos;
  do cap <- match tc_capacity c with
            | Some n => Ok n
            | None => do p <- next_power_of_two m eff; Ok (Z.min DEFAULT_PREV_SIZE (Z.shiftr p 1))
            end;
  do p <- next_power_of_two m (eff + eff / 2);
  do tb <- table_new m (Z.min DEFAULT_TRGT_WIN_SIZE (Z.shiftr p 1)) true;
  do ch <- chain_new cap;
  let t := mkTM (tc_early c) (tc_chain_check c) 0 start_pos (Z.max 0 (zlen trgt - 4)) tb ch in
  if start_pos >? 0 then
    let start := Z.max 0 (start_pos - cap) in
    do w <- slice trgt start (zlen trgt);
    let hash := calculate_small_checksum w in
    do t <- trgt_store t hash start;
    trgt_prefill (Z.to_nat (start_pos - start)) t trgt hash start
  else Ok t.
