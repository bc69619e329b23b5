(** What is found is not sent as literals; runs are not sent as literals. Property C107. *)
From Verif Require Import Base Spec SpecEnc SpecLit SpecApi MCommon MHasher MHashmap MOpMaker MTrgtMatcher MSrcMatcher MEncInner MEncode MLevels PBase PDecoder POpMaker PEncInner PEncode PTotal TOpMaker PFind PLoss PRuns TEncode TFind2.
Ltac Zify.zify_post_hook ::= idtac.
Arguments Z.add : simpl never.
Arguments Z.sub : simpl never.
Arguments Z.mul : simpl never.
Arguments Z.pow : simpl never.

(** C107. Of every match the matchers hand over, at most 13 bytes are sent as literals. *)
Theorem C107_found_not_resent : forall m m' cd c dict trgt patch, comp_lossless cd (cf_comp c) trgt ->
  Forall is_byte trgt -> zlen trgt < 2 ^ 63 -> zlen (source_of dict) < 2 ^ 63 -> encode m cd c dict trgt = (patch, Ok tt) ->
  exists cs ops, encode_inner m (inner_of c) (source_of dict) trgt = Ok cs /\ reads_as m' cd patch ops /\ run_ops (source_of dict) [] ops = Some trgt /\
    forall k, In k cs -> literals_in (c_pos k) (c_pos k + c_len k) 0 ops <= 13.
Proof.
  intros m m' cd c dict trgt patch Hcd Hb Ht Hs H. destruct (encode_reads m m' cd c dict trgt patch Hcd Hb Ht Hs H) as (cs & ops & E1 & S1 & S2 & E2 & Hr & Hg & Hrd).
  exists cs, ops. split; [exact E1|]. split; [exact Hrd|]. split; [exact Hr|]. intros k Hk. exact (translate_cand m (source_of dict) trgt cs ops k Hb ltac:(lia) ltac:(lia) S1 S2 Hk E2).
Qed.
(** C107. Of any number of equal bytes in a row in the target at most 30 are sent as literals. *)
Theorem C107_run_not_resent : forall m m' cd c dict trgt patch, comp_lossless cd (cf_comp c) trgt ->
  Forall is_byte trgt -> zlen trgt < 2 ^ 63 -> zlen (source_of dict) < 2 ^ 63 ->
  (cf_trgt c <> None \/ cf_src c <> None /\ source_of dict <> []) -> encode m cd c dict trgt = (patch, Ok tt) ->
  exists ops, reads_as m' cd patch ops /\ run_ops (source_of dict) [] ops = Some trgt /\
    forall x n b, 0 <= x -> 0 <= n -> x + n <= zlen trgt -> sub trgt x n = rep b n -> literals_in x (x + n) 0 ops <= 30.
Proof.
  intros m m' cd c dict trgt patch Hcd Hb Ht Hs Hcf H. destruct (encode_reads m m' cd c dict trgt patch Hcd Hb Ht Hs H) as (cs & ops & E1 & S1 & S2 & E2 & Hr & Hg & Hrd).
  exists ops. split; [exact Hrd|]. split; [exact Hr|]. intros x n b Hx Hn Hl E.
  destruct (Z_lt_dec n 4) as [L|L]; [pose proof (lit_bound x (x + n) ops 0 Hg); lia|].
  destruct (stretch_exists trgt x n b Hx ltac:(lia) Hl E) as (a & bb & A & B & S). pose proof (s_a _ _ _ _ S) as Ha.
  pose proof (literals_mono x (x + n) a bb A B ops 0) as M.
  assert (Hcf' : ic_trgt (inner_of c) <> None \/ ic_src (inner_of c) <> None /\ 0 < zlen (source_of dict)).
  { cbn [inner_of ic_trgt ic_src]. destruct Hcf as [Hcf|[Hcf Hz]]; [now left|right]. split; [exact Hcf|]. destruct (source_of dict) as [|z l]; [now contradiction Hz|]. rewrite zlen_cons. pose proof (zlen_nonneg l). lia. }
  pose proof (encode_inner_runs m (inner_of c) (source_of dict) trgt cs a bb b Hb ltac:(lia) ltac:(lia) Hcf' S E1) as T.
  pose proof (translate_two m (source_of dict) trgt cs ops a bb 4 Hb ltac:(lia) ltac:(lia) S1 S2 Ha T E2). lia.
Qed.

(** 13 is the exact limit: op making throws away the second of these five matches (positions and lengths as the target 0 0 0 ... gives them) and keeps only the part the others cover. *)
Definition ex107_cands := [MRun 0 6 0; MRun 0 13 0; MRun 0 8 5; MRun 0 9 9; MRun 0 10 13].
Lemma runs_sound : forall trgt, trgt = rep 0 23 -> Forall (cand_sound [] trgt) ex107_cands /\ cands_ordered ex107_cands.
Proof. intros trgt ->. split; [|cbn; unfold c_end; cbn; lia]. unfold ex107_cands. repeat (apply Forall_cons; [unfold cand_sound; cbn; repeat split; try lia; vm_compute; congruence|]). apply Forall_nil. Qed.
Example C107_thirteen_attained : Forall (cand_sound [] (rep 0 23)) ex107_cands /\ cands_ordered ex107_cands /\
  forall m, match translate_inner_ops m (rep 0 23) ex107_cands with Ok ops => literals_in 0 13 0 ops = 13 /\ run_ops [] [] ops = Some (rep 0 23) | _ => False end.
Proof. split; [apply runs_sound; reflexivity|]. split; [apply runs_sound with (trgt := rep 0 23); reflexivity|]. intros []; vm_compute; split; reflexivity. Qed.
(** A run of 1000 in the middle, with the default configuration and a dictionary of one byte, costs no literal; a run of four at the end is sent as literals; without a matcher everything is. *)
Definition ex107_trgt := [1; 2; 3] ++ rep 9 1000 ++ [4; 6; 7; 8; 10; 11; 12; 13; 5; 5; 5; 5].
Example C107_run_example : zlen ex107_trgt = 1015 /\ sub ex107_trgt 3 1000 = rep 9 1000 /\
  (forall m, encode m toy ex69_cfg (Some [9]) ex107_trgt =
    ([0; 8; 247; 7; 131; 1; 2; 3; 254; 9; 254; 9; 254; 9; 64; 186; 0; 6; 64; 116; 1; 0; 64; 0; 1; 0; 140; 4; 6; 7; 8; 10; 11; 12; 13; 5; 5; 5; 5], Ok tt)) /\
  (forall m, encode m toy (mkConfig None None None Interleaved 16777215 None None) (Some [9]) (take 13 ex107_trgt) = ([0; 1; 13; 141; 1; 2; 3; 9; 9; 9; 9; 9; 9; 9; 9; 9; 9], Ok tt)).
Proof. split; [vm_compute; reflexivity|]. split; [vm_compute; reflexivity|]. split; intros []; vm_compute; reflexivity. Qed.
(** The hypotheses of both theorems are met by it. *)
Example C107_hypotheses : comp_lossless toy (cf_comp ex69_cfg) ex107_trgt /\ Forall is_byte ex107_trgt /\ cf_src ex69_cfg <> None /\ source_of (Some [9]) <> [].
Proof. split; [exact I|]. split; [apply Forall_forall; intros v Hv; assert (Q : forallb (fun v => (0 <=? v) && (v <? 256)) ex107_trgt = true) by (vm_compute; reflexivity); rewrite forallb_forall in Q; specialize (Q v Hv); unfold is_byte; lia|]. split; [discriminate|discriminate]. Qed.

Print Assumptions C107_found_not_resent.
Print Assumptions C107_run_not_resent.
