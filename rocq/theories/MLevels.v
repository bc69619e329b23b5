(** Model of Ranger and of the compression levels: smdiff-encoder/src/lib.rs, src_matcher.rs, trgt_matcher.rs. *)
From Verif Require Import Base Spec SpecEnc MCommon MTrgtMatcher MSrcMatcher MEncInner MEncode.

(** Ranger, lib.rs:267-273 *)
Record ranger := mkRanger { r_istart : Z; r_iend : Z; r_ostart : Z; r_oend : Z; r_ispan : Z; r_ospan : Z; r_inv : bool }.
(** Ranger::new, lib.rs:276-282. input_range is istart..iend, output_range is ostart..=oend. *)
Definition ranger_new (m : mode) (istart iend ostart oend : Z) : res ranger :=
  do n <- usub m iend istart;
  do span <- usub m n 1;
  Ok (mkRanger istart iend ostart oend span (Z.abs (oend - ostart)) (ostart >? oend)).
(** Ranger::map, lib.rs:284-296. [clamp] panics if its bounds are inverted, [/] on a zero divisor. *)
Definition ranger_map (m : mode) (r : ranger) (v : Z) : res Z :=
  do hi <- usub m (r_iend r) 1;
  do _ <- assert_ (r_istart r <=? hi);
  let v := Z.min (Z.max v (r_istart r)) hi in
  let b := Z.min (r_ostart r) (r_oend r) in
  do k <- usub m v (r_istart r);
  do prod <- arith m to_u64 (r_ospan r * k);
  do _ <- assert_ (negb (r_ispan r =? 0));
  do output <- arith m to_u64 (b + prod / r_ispan r);
  if r_inv r then
    do s <- arith m to_u64 (r_ospan r + r_oend r);
    do d <- usub m s output;
    arith m to_u64 (d + r_oend r)
  else Ok output.

(** SrcMatcherConfig::comp_level, src_matcher.rs:150-154 *)
Definition src_level (m : mode) (level : Z) : res src_config :=
  do _ <- assert_ (level <=? 9);
  do r <- ranger_new m 0 10 26 2;
  do step <- ranger_map m r level;
  Ok (mkSC step None).
(** TrgtMatcherConfig::comp_level, trgt_matcher.rs:139-144 *)
Definition trgt_level (m : mode) (level : Z) : res trgt_config :=
  do _ <- assert_ (level <=? 9);
  do r <- ranger_new m 0 10 6 70;
  do early <- ranger_map m r level;
  do r <- ranger_new m 0 10 1 33;
  do chain <- ranger_map m r level;
  Ok (mkTC early chain None).
(** EncoderConfig::comp_level, lib.rs:174-195 *)
Definition config_level (m : mode) (level : Z) (match_trgt : bool) (sc : option sec_comp) : res config :=
  do t <- (if match_trgt then do t <- trgt_level m level; Ok (Some t) else Ok None);
  let f := match sc with Some _ => Segregated | None => Interleaved end in
  do s <- src_level m level;
  Ok (mkConfig (Some s) t sc f MAX_WIN_SIZE None None).
(** EncoderConfig::default, lib.rs:197-209 *)
Definition config_default (m : mode) : res config :=
  do s <- src_level m 3;
  Ok (mkConfig (Some s) None None Interleaved MAX_WIN_SIZE None None).
