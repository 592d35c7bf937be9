(** From packets with bit fields and checksums to loaded images. *)
From Coq Require Import Strings.String ZifyBool ZifyNat ZifyN.
From Verif Require Import Base SpecBytes SpecVM ModelVM ModelImage SpecImage ModelText SpecText ModelNames ModelParse ModelSchema SpecParse LemBase LemStr LemText
  LemImage LemLex LemParse SpecNames LemNames SpecPacket LemPacket SpecMessage LemAccept SpecNest LemNest LemNestFile LemNestWire SpecParts LemParts LemPartsFile.

Section Ids.
  Variable P : list N -> Prop.
  Definition part_ids (p : part) : list (list N) := match p with Member m => member_ids m | Bits l => flat_map bit_names l | Check _ n | Numeric _ _ n => [n] end.
  Lemma part_words dbl env p ws : part_read dbl env p ws -> words_ok P ws -> (forall s b, In (s, b) env -> Forall P (flat_map member_ids b)) -> Forall P (part_ids p).
  Proof.
    intros [m w R|l w R|ds n w ty s R K I|ds n w ty s R K I] KW KE; cbn [part_ids].
    - eapply member_words; eauto.
    - induction R as [|b l w wr R1 R IH]; [constructor|]. apply words_app in KW as (A & B). cbn [flat_map]. apply Forall_app. split; [|auto].
      destruct R1; cbn [bit_names]; constructor; [|constructor]. apply A. cbn. auto.
    - apply words_app in KW as (_ & KW). constructor; [|constructor]. apply KW. cbn. auto.
    - apply words_app in KW as (_ & KW). constructor; [|constructor]. apply KW. cbn. auto.
  Qed.
  Lemma parts_words dbl env ps ws : several (part_read dbl env) ps ws -> words_ok P ws -> (forall s b, In (s, b) env -> Forall P (flat_map member_ids b)) -> Forall P (flat_map part_ids ps).
  Proof.
    intros R K KE. induction R as [|p l ws wr PR R IH]; [constructor|]. apply words_app in K as (A & B). cbn [flat_map]. apply Forall_app. split; [eapply part_words; eauto|auto].
  Qed.
End Ids.
Lemma part_text p : Forall text (part_ids p) -> Forall text (own_names p) /\ Forall text (part_names p).
Proof.
  destruct p as [m|l|ds n|ds ty n]; cbn [part_ids own_names part_names]; intros T; auto.
  - pose proof (text_names m [] ltac:(constructor) T) as K. split; [|exact K]. constructor; [|constructor]. apply (proj1 (Forall_forall _ _) K), members_plain_name.
Qed.
Lemma parts_text ps : Forall text (flat_map part_ids ps) -> Forall text (flat_map own_names ps) /\ Forall text (flat_map part_names ps).
Proof.
  induction ps as [|p ps IH]; intros T; [split; constructor|]. cbn [flat_map] in *. apply Forall_app in T as (A & B). destruct (part_text _ A), (IH B). split; apply Forall_app; auto.
Qed.
Lemma frame_text E path k toks : holds_frame E path k toks -> Forall text (frame_all k).
Proof.
  intros (src & ws & RD & LX & M & (sw & os & fw & SR & OR & FR & NN & ND & EW)).
  assert (T : tokens_of 0 src toks).
  { destruct (lex_from_spec (Datatypes.S (length src)) src 0 1 ltac:(lia)) as (ts & L & T). unfold lex in LX. rewrite L in LX. injection LX as <-. exact T. }
  assert (K : words_ok text ws) by (intros s I; apply alnum_text, (token_names _ _ _ T); rewrite M; apply in_or_app; now left).
  rewrite EW in K. apply words_app in K as (K1 & K). apply words_app in K as (_ & K). apply words_app in K as (K2 & K). apply words_app in K as (K3 & _).
  assert (KE : forall s b, In (s, b) (fr_structs k) -> Forall text (flat_map member_ids b)) by (apply (structs_words text [] _ sw SR K1); intros ? ? []).
  destruct (parts_text (fr_parts k) (parts_words text _ _ _ _ FR K3 KE)) as (T1 & T2).
  apply Forall_app. split; [|apply Forall_app; split; [exact T1|apply Forall_app; split; [exact T2|]]].
  - apply Forall_forall. intros n I. apply in_flat_map in I as ((s & b) & I & J). apply (proj1 (Forall_forall _ _) (text_all b [] ltac:(constructor) (KE s b I))). exact J.
  - constructor; [|constructor]. apply K2. cbn. auto.
Qed.

Lemma frame_wire E path k toks : holds_frame E path k toks ->
  Forall (fun n => lenN n <= 255) (frame_all k) -> lenN (frame_all k) <= 65535 -> 16 + table_bytes (frame_names k) < 2 ^ 32 ->
  exists im pr id, (forall fuel, (length toks < fuel)%nat -> compile_file E fuel path = CImage im) /\
    load_il im = Ok (Loaded pr) /\
    (forall n, In n (frame_names k) -> exists p, get_key_name im pr (id n) = Ok (Some p) /\ string_at im p n) /\
    (forall n, In n (frame_names k) -> id n < lenN (frame_names k)) /\
    sub im (pr_bytecode pr) (pr_bytecode_len pr) = code (frame_instrs id k).
Proof.
  intros HP LB LN TB. pose proof (frame_text _ _ _ _ HP) as TX. destruct HP as (src & ws & RD & LX & M & SR).
  destruct (compile_frame E k ws path src toks SR RD LX M TX LB ltac:(lia)) as (names & ND & IN & C).
  destruct (fewer_bytes names ND (frame_names k) ltac:(intros x I; now apply IN)) as (L & B).
  assert (LS : lenN (frame_names k) <= 65535) by (unfold frame_all in LN; rewrite !lenN_app in LN; lia).
  assert (TN : Forall text names).
  { apply Forall_forall. intros x I. apply (proj1 (Forall_forall _ _) TX). apply in_or_app. right. apply in_or_app. right. now apply IN. }
  set (bc := code (frame_instrs (index_of names) k)) in *.
  exists (image names bc), (prog names bc), (index_of names). split; [exact C|]. split; [apply load_image; auto; lia|]. split; [|split].
  - intros n I. apply IN in I. pose proof (index_bound names n I) as IB. destruct (name_of names bc TN ltac:(lia) ltac:(lia) _ IB) as (p & A & D).
    exists p. split; [exact A|]. now rewrite nth_index in D.
  - intros n I. apply IN in I. pose proof (index_bound names n I). lia.
  - apply prog_code; auto; lia.
Qed.
