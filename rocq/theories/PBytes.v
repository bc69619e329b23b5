(** What conforms to the format consists of bytes; so what the encoder writes can be given to the theorems that ask for bytes. *)
From Verif Require Import Base Spec SpecEnc MCommon MWriter MReader MDecoder MOpMaker MTrgtMatcher MSrcMatcher MEncInner MEncode SpecApi SpecFmt
  PBase PCommon PStream PSection PWriter PDecoder PPatch POpMaker PEncInner PEncode PFormat PFormat2 TFormat.
Ltac Zify.zify_post_hook ::= idtac.
Arguments Z.add : simpl never.
Arguments Z.sub : simpl never.
Arguments Z.mul : simpl never.
Arguments Z.pow : simpl never.

Definition lits_ok (x : op) : Prop := match x with Add bs => Forall is_byte bs | Run b n => 1 <= n -> is_byte b | _ => True end.
Lemma run_lits d : forall ops o out, run_ops d o ops = Some out -> Forall is_byte out -> Forall lits_ok ops /\ Forall is_byte o.
Proof.
  induction ops as [|x ops IH]; intros o out E Hb; cbn [run_ops] in E; [injection E as <-; split; [constructor|exact Hb]|].
  destruct (op_bytes d o x) as [b|] eqn:Eb; [|discriminate]. destruct (IH _ _ E Hb) as [A B]. apply Forall_app in B as [B1 B2]. split; [|exact B1]. constructor; [|exact A].
  destruct x as [bs|c n|s a n]; cbn [op_bytes lits_ok] in *; [injection Eb as <-; exact B2| |exact I]. injection Eb as <-. intro Hn.
  unfold rep in B2. destruct (Z.to_nat n) as [|k] eqn:Ek; [lia|]. cbn [repeat] in B2. now inversion B2.
Qed.
Lemma size_bytes s sb n : size_enc s sb n -> 0 <= s < 64 /\ Forall is_byte sb.
Proof. intro H. inversion H; subst; (split; [lia|]); repeat constructor; unfold is_byte in *; lia. Qed.
Lemma op_enc_bytes d o b x : op_enc d o b x -> lits_ok x -> Forall is_byte b.
Proof.
  intros H Hl. inversion H as [s sb bs Hs|n c Hn|src s sb n db delta Hs Hd Hz Hr]; subst; cbn [lits_ok] in Hl.
  - apply size_bytes in Hs as [H1 H2]. constructor; [unfold is_byte; lia|]. apply Forall_app. auto.
  - constructor; [unfold is_byte; lia|]. constructor; [apply Hl; lia|constructor].
  - apply size_bytes in Hs as [H1 H2]. constructor; [unfold is_byte; destruct src; lia|]. apply Forall_app. split; [exact H2|]. now apply (leb_bytes _ _ Hd).
Qed.
Lemma ops_enc_bytes f : forall d o b ops, ops_enc f d o b ops -> Forall lits_ok ops -> Forall is_byte b.
Proof.
  induction 1 as [d o|d o b x bs r _ Hx _ IH|d o s sb a bs r _ Hs _ IH]; intro Hl; [constructor| |]; apply Forall_cons_iff in Hl as [Hx' Hl]; apply Forall_app; (split; [|now apply IH]).
  - exact (op_enc_bytes _ _ _ _ Hx Hx').
  - apply size_bytes in Hs as [H1 H2]. constructor; [unfold is_byte; lia|exact H2].
Qed.
Lemma literals_bytes ops : Forall lits_ok ops -> Forall is_byte (literals ops).
Proof. induction 1 as [|x l Hx _ IH]; [constructor|]. cbn [literals flat_map]. apply Forall_app. split; [|exact IH]. destruct x; [exact Hx|constructor|constructor]. Qed.
Lemma body_bytes f ops b : body_enc f ops b -> Forall lits_ok ops -> Forall is_byte b.
Proof. intros (e & He & ->) Hl. apply Forall_app. split; [exact (ops_enc_bytes _ _ _ _ _ He Hl)|]. destruct f; [constructor|now apply literals_bytes]. Qed.
Lemma header_bytes v h b : 0 <= v <= 7 -> 0 <= h_comp h <= 7 -> header_enc short_number v h b -> Forall is_byte b.
Proof.
  intros Hv Hc H. assert (Hcb : is_byte (control_byte v h)) by (unfold is_byte, control_byte; destruct (h_format h), (h_more h); lia).
  inversion H as [b1 b2 Ef [H1 _] [H2 _]|b1 b2 b3 Ef [H1 _] [H2 _] [H3 _]]; subst; (constructor; [exact Hcb|]); rewrite !Forall_app; repeat split; eauto using leb_bytes.
Qed.
Lemma patch_enc_bytes (pack : Z -> list Z -> list Z -> Prop) v : 0 <= v <= 7 ->
  forall secs bs, patch_enc pack short_number v secs bs -> Forall (fun s => forall body stored, Forall is_byte body -> pack (h_comp (snd s)) body stored -> Forall is_byte stored) secs ->
  Forall lits_ok (concat (map fst secs)) -> Forall is_byte bs.
Proof.
  intros Hv. assert (S : forall s b, section_enc pack short_number v s b -> (forall body stored, Forall is_byte body -> pack (h_comp (snd s)) body stored -> Forall is_byte stored) -> Forall lits_ok (fst s) -> Forall is_byte b).
  { intros s b [Ht (hb & bb & pb & H1 & H2 & H3 & ->)] Hp Hl. apply Forall_app. split; [exact (header_bytes v _ _ Hv ltac:(apply Ht) H1)|]. exact (Hp _ _ (body_bytes _ _ _ H2 Hl) H3). }
  induction 1 as [s b Hm Hs|s b r bs Hm Hs Hr IH]; intros Hp Hl; cbn [map concat] in Hl; apply Forall_app in Hl as [L1 L2]; apply Forall_cons_iff in Hp as [P1 P2]; [exact (S _ _ Hs P1 L1)|].
  apply Forall_app. split; [exact (S _ _ Hs P1 L1)|now apply IH].
Qed.
(** The external compressor used, if any, produces bytes. *)
Definition comp_bytes (cd : codecs) (sc : option sec_comp) : Prop :=
  match sc with
  | Some (ZstdComp _) => forall l b, Forall is_byte b -> Forall is_byte (zstd_enc cd l b)
  | Some (BrotliComp _) => forall l b, Forall is_byte b -> Forall is_byte (brotli_enc cd l b)
  | _ => True
  end.
Lemma encode_bytes m cd c dict trgt patch : comp_bytes cd (cf_comp c) -> Forall is_byte trgt -> zlen trgt < 2 ^ 63 -> zlen (source_of dict) < 2 ^ 63 ->
  encode m cd c dict trgt = (patch, Ok tt) -> Forall is_byte patch.
Proof.
  intros He Hb Ht Hs E. destruct (C63_encode_conforms m cd c dict trgt patch Hb Ht Hs E) as (secs & H1 & H2 & H3). destruct (run_lits _ _ _ _ H2 Hb) as [Hl _].
  apply (patch_enc_bytes _ 0 ltac:(lia) _ _ H1); [|exact Hl]. clear - He H3. induction H3 as [|s secs [_ Hc] _ IH]; constructor; auto. intros body stored Hbd. rewrite Hc. clear - He Hbd.
  unfold any_pack, comp_value, algo_value. destruct (cf_comp c) as [[t|l|o]|]; cbn [comp_bytes] in He; intro H.
  - destruct H as (secs & P1 & P2 & _). destruct (run_lits _ _ _ _ P2 Hbd) as [Hl _]. apply (patch_enc_bytes _ 0 ltac:(lia) _ _ P1); [|exact Hl].
    clear. induction secs; constructor; auto. intros body stored Hb [_ ->]. exact Hb.
  - destruct H as [k ->]. now apply He.
  - destruct H as [k ->]. now apply He.
  - subst. exact Hbd.
Qed.
