(** Model of smdiff-encoder/src/encoder.rs. *)
From Verif Require Import Base Spec SpecEnc MHasher MHashmap MTrgtMatcher MSrcMatcher.

(** LargerTrgtNaiveTests, lines 22-27 *)
Inductive naive := NPrepend | NAppend | NPrependAppend | NAppendPrepend.
(** GenericEncoderConfig, lines 368-375 *)
Record inner_config := mkIC {
  ic_trgt : option trgt_config; ic_src : option src_config; ic_lazy : option Z; ic_naive : option naive
}.

Definition starts_with (l p : list Z) : bool := list_eqb (take (zlen p) l) p.
Definition ends_with (l p : list Z) : bool := (zlen p <=? zlen l) && list_eqb (drop (zlen l - zlen p) l) p.

(** The naive tests, lines 131-156: (ops, cur_o_pos, max_trgt_match_len) *)
Definition naive_start (src trgt : list Z) : option (list cand * Z * Z) :=
  if starts_with trgt src then Some ([MSrc 0 (zlen src) 0], zlen src, zlen trgt) else None.
Definition naive_end (src trgt : list Z) : option (list cand * Z * Z) :=
  if ends_with trgt src then Some ([], 0, zlen trgt - zlen src) else None.
Definition or_else {A} (a : option A) (b : option A) : option A := match a with Some _ => a | None => b end.
Definition naive_tests (t : option naive) (src trgt : list Z) : list cand * Z * Z :=
  let none := ([], 0, zlen trgt) in
  if zlen trgt >? zlen src then
    match t with
    | None => none
    | Some t =>
        match (match t with
               | NAppend => naive_start src trgt
               | NPrepend => naive_end src trgt
               | NAppendPrepend => or_else (naive_start src trgt) (naive_end src trgt)
               | NPrependAppend => or_else (naive_end src trgt) (naive_start src trgt)
               end) with
        | Some r => r
        | None => none
        end
    end
  else none.

(** find_initial_run_len, lines 341-355, over the first 4 bytes; returns (run_len, run_byte). *)
Fixpoint initial_run (n : nat) (trgt : list Z) (pos run_len last : Z) : res (Z * Z) :=
  match n with
  | O => Ok (run_len, last)
  | S k =>
      do c <- idx trgt pos;
      if last =? c then initial_run k trgt (pos + 1) (run_len + 1) last
      else initial_run k trgt (pos + 1) 1 c
  end.

(** Number of leading bytes equal to [b] ([take_while], [count]). *)
Fixpoint run_count (b : Z) (l : list Z) : Z :=
  match l with x :: r => if x =? b then 1 + run_count b r else 0 | [] => 0 end.

(** clear_existing_ops, lines 358-363. The list of operations is kept in reverse (last first). *)
Fixpoint clear_ops (ops : list cand) (start : Z) : res (list cand) :=
  match ops with
  | [] => if 0 >=? start then Panic else Ok []
  | c :: r => if c_pos c >=? start then clear_ops r start else Ok ops
  end.

(** EncoderState, lines 333-338, and the variables of the loop, lines 128-171. *)
Inductive estate := StartNewMatch | TryMatch | FoundMatch (match_len : Z) | MoveForwardOneByte.
Record est := mkE {
  e_ops : list cand;    (* reversed *)
  e_cur : Z; e_min : Z; e_run : Z; e_byte : Z; e_st : estate;
  e_src : option src_matcher; e_trgt : option trgt_matcher
}.

(** The rolling loops of lines 190-192 and 202-204, over [n] positions from [pos]. *)
Fixpoint roll_large (n : nat) (trgt : list Z) (hash pos : Z) : res Z :=
  match n with
  | O => Ok hash
  | S k =>
      do old <- idx trgt pos;
      do new <- idx trgt (pos + 9);
      roll_large k trgt (update_large_checksum_fwd hash old new) (pos + 1)
  end.
Fixpoint roll_small (n : nat) (trgt : list Z) (hash pos : Z) : res Z :=
  match n with
  | O => Ok hash
  | S k =>
      do old <- idx trgt pos;
      do new <- idx trgt (pos + 4);
      roll_small k trgt (update_small_checksum_fwd hash old new) (pos + 1)
  end.
Definition tm_set_fwd (t : trgt_matcher) (hash pos : Z) : trgt_matcher :=
  mkTM (tm_early t) (tm_chain_check t) hash pos (tm_max t) (tm_table t) (tm_chain t).

(** lines 184-198 *)
Definition src_seek (m : mode) (s : src_matcher) (src trgt : list Z) (cur : Z) : res src_matcher :=
  do s <- (if sm_next s <=? cur then add_start_positions m s cur src else Ok s);
  if sm_pos s <? sm_max s then
    do h <- (if sm_pos s + 9 >? cur then roll_large (Z.to_nat (cur - sm_pos s)) trgt (sm_hash s) (sm_pos s)
             else do w <- slice trgt cur (cur + 9); Ok (calculate_large_checksum w));
    Ok (sm_set_fwd s h cur)
  else Ok s.
(** lines 199-210 *)
Definition trgt_seek (t : trgt_matcher) (trgt : list Z) (cur : Z) : res trgt_matcher :=
  if tm_pos t <? tm_max t then
    do h <- (if tm_pos t + 4 >? cur then roll_small (Z.to_nat (cur - tm_pos t)) trgt (tm_hash t) (tm_pos t)
             else do w <- slice trgt cur (cur + 4); Ok (calculate_small_checksum w));
    Ok (tm_set_fwd t h cur)
  else Ok t.
Definition opt_map {A} (f : A -> res A) (o : option A) : res (option A) :=
  match o with None => Ok None | Some a => do b <- f a; Ok (Some b) end.
Definition last_end (ops : list cand) : Z := match ops with c :: _ => c_pos c + c_len c | [] => 0 end.

(** State StartNewMatch, lines 180-217 *)
Definition start_new_match (m : mode) (src trgt : list Z) (e : est) : res est :=
  let cur := e_cur e in
  do (run, byte) <- initial_run 4 trgt cur 0 (e_byte e);
  do sm <- opt_map (fun s => src_seek m s src trgt cur) (e_src e);
  do tm <- opt_map (fun t => trgt_seek t trgt cur) (e_trgt e);
  let le := last_end (e_ops e) in
  let mm := if le >? cur then Z.max 4 (1 + le - cur) else 4 in
  Ok (mkE (e_ops e) cur mm run byte TryMatch sm tm).

Definition set_state (e : est) (st : estate) : est :=
  mkE (e_ops e) (e_cur e) (e_min e) (e_run e) (e_byte e) st (e_src e) (e_trgt e).
Definition found (e : est) (ops : list cand) (len : Z) : est :=
  mkE ops (e_cur e) (e_min e) (e_run e) (e_byte e) (FoundMatch len) (e_src e) (e_trgt e).

(** State TryMatch, lines 218-282. Each part returns [Some] of the next state if it found a match ([continue]). *)
(** lines 224-235; [e] already has the extended run length *)
Definition try_run (m : mode) (trgt : list Z) (e : est) : res est :=
  do rem <- slice trgt (e_cur e) (zlen trgt);
  if e_run e =? 4 then
    do rest <- slice rem 4 (zlen rem);
    Ok (mkE (e_ops e) (e_cur e) (e_min e) (e_run e + run_count (e_byte e) rest) (e_byte e) (e_st e) (e_src e) (e_trgt e))
  else Ok e.
Definition take_run (m : mode) (trgt : list Z) (was4 : bool) (e : est) : res (option est) :=
  if was4 && (e_run e >=? e_min e) then
    do w <- slice trgt (e_cur e) (zlen trgt);
    do _ <- debug_assert_ m (run_count (e_byte e) w =? e_run e);
    Ok (Some (found e (MRun (e_byte e) (e_run e) (e_cur e) :: e_ops e) (e_run e)))
  else Ok None.
(** lines 237-258 *)
Definition try_src (m : mode) (src trgt : list Z) (mx : Z) (e : est) : res (option est) :=
  match e_src e with
  | None => Ok None
  | Some s =>
      let cur := e_cur e in
      if cur + 9 <=? mx then
        do _ <- debug_assert_ m (sm_pos s =? cur);
        do r <- find_best_src_match m s src trgt;
        match r with
        | Some (sp, pre, post) =>
            let len := pre + post in
            if post >=? e_min e then
              do start <- usub m cur pre;
              do ops <- (if pre >? 0 then clear_ops (e_ops e) start else Ok (e_ops e));
              do sstart <- usub m sp pre;
              do _ <- debug_assert_ m (sstart + len <=? zlen src);
              do _ <- match m with
                      | Debug => do a <- slice src sstart (sstart + len); do b <- slice trgt start (start + len); assert_ (list_eqb a b)
                      | Release => Ok tt
                      end;
              Ok (Some (found e (MSrc sstart len start :: ops) post))
            else Ok None
        | None => Ok None
        end
      else Ok None
  end.
(** lines 260-273 *)
Definition try_trgt (m : mode) (trgt : list Z) (mx : Z) (e : est) : res (option est) :=
  match e_trgt e with
  | None => Ok None
  | Some t =>
      let cur := e_cur e in
      if cur + 4 <=? mx then
        do _ <- debug_assert_ m (tm_pos t =? cur);
        do r <- find_best_trgt_match m t trgt (e_min e);
        match r with
        | Some (start, len) =>
            if len >=? e_min e then
              do _ <- debug_assert_ m (start + len <=? cur);
              do _ <- match m with
                      | Debug => do a <- slice trgt start (start + len); do b <- slice trgt cur (cur + len); assert_ (list_eqb a b)
                      | Release => Ok tt
                      end;
              Ok (Some (found e (MTrgt start len cur :: e_ops e) len))
            else Ok None
        | None => Ok None
        end
      else Ok None
  end.
Definition try_match (m : mode) (src trgt : list Z) (mx : Z) (e : est) : res est :=
  let was4 := e_run e =? 4 in
  do e <- try_run m trgt e;
  do r <- take_run m trgt was4 e;
  match r with Some e' => Ok e' | None =>
  do r <- try_src m src trgt mx e;
  match r with Some e' => Ok e' | None =>
  do r <- try_trgt m trgt mx e;
  match r with Some e' => Ok e' | None =>
    let mm := if e_min e >? 4 then e_min e - 1 else e_min e in
    Ok (mkE (e_ops e) (e_cur e) mm (e_run e) (e_byte e) MoveForwardOneByte (e_src e) (e_trgt e))
  end end end.

(** State FoundMatch, lines 283-294 *)
Definition found_match (m : mode) (lazy mx : Z) (e : est) (len : Z) : res est :=
  do last <- usub m mx 1;
  if (lazy >? 0) && (len <? lazy) && (e_cur e + len <? last)
  then Ok (mkE (e_ops e) (e_cur e) len (e_run e) (e_byte e) MoveForwardOneByte (e_src e) (e_trgt e))
  else Ok (mkE (e_ops e) (e_cur e + len) (e_min e) (e_run e) (e_byte e) StartNewMatch (e_src e) (e_trgt e)).

(** State MoveForwardOneByte, lines 295-319 *)
Definition trgt_forward (trgt : list Z) (cur : Z) (t : trgt_matcher) : res trgt_matcher :=
  do t <- trgt_store t (tm_hash t) cur;
  if tm_pos t <? tm_max t then
    do old <- idx trgt cur;
    do new <- idx trgt (cur + 4);
    Ok (tm_set_fwd t (update_small_checksum_fwd (tm_hash t) old new) (cur + 1))
  else Ok t.
Definition src_forward (trgt : list Z) (cur : Z) (s : src_matcher) : res src_matcher :=
  if sm_pos s <? sm_max s then
    do old <- idx trgt cur;
    do new <- idx trgt (cur + 9);
    Ok (sm_set_fwd s (update_large_checksum_fwd (sm_hash s) old new) (cur + 1))
  else Ok s.
Definition move_forward (trgt : list Z) (e : est) : res est :=
  let cur := e_cur e in
  do c <- idx trgt (cur + 4);
  let run := if e_byte e =? c then e_run e + 1 else 1 in
  do tm <- opt_map (trgt_forward trgt cur) (e_trgt e);
  do sm <- opt_map (src_forward trgt cur) (e_src e);
  Ok (mkE (e_ops e) (cur + 1) (e_min e) run c TryMatch sm tm).

Definition estep (m : mode) (src trgt : list Z) (lazy mx : Z) (e : est) : res est :=
  match e_st e with
  | StartNewMatch => start_new_match m src trgt e
  | TryMatch => try_match m src trgt mx e
  | FoundMatch len => found_match m lazy mx e len
  | MoveForwardOneByte => move_forward trgt e
  end.
(** The main loop, lines 174-321 *)
Fixpoint eloop (fuel : nat) (m : mode) (src trgt : list Z) (lazy mx : Z) (e : est) : res est :=
  if e_cur e + 4 >=? mx then Ok e else
  match fuel with
  | O => Diverge
  | S k => do e <- estep m src trgt lazy mx e; eloop k m src trgt lazy mx e
  end.

(** encode_inner, lines 114-332. Four rounds of the loop move at least one byte forward. *)
Definition encode_inner (m : mode) (c : inner_config) (src trgt : list Z) : res (list cand) :=
  match ic_src c, ic_trgt c with
  | None, None => Ok []
  | _, ot =>
      if (zlen src =? 0) && match ot with None => true | Some _ => false end then Ok [] else
      if zlen trgt =? 0 then Ok [] else
      let '(ops, cur, mx) := naive_tests (ic_naive c) src trgt in
      do tm <- match ic_trgt c with None => Ok None | Some tc => do t <- trgt_build m tc trgt cur; Ok (Some t) end;
      do sm <- match ic_src c with None => Ok None | Some sc => do s <- src_build m sc src cur trgt; Ok (Some s) end;
      let lazy := match ic_lazy c with Some n => n | None => 90 end in
      let e := mkE ops cur 4 0 0 StartNewMatch sm tm in
      do e <- eloop (4 * length trgt + 4) m src trgt lazy mx e;
      do _ <- assert_ (e_cur e <=? zlen trgt);
      let ops := rev (e_ops e) in
      Ok (if mx <? zlen trgt then ops ++ [MSrc 0 (zlen src) mx] else ops)
  end.
