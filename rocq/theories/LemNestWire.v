(** From schemas with structures to loaded images. *)
From Coq Require Import Strings.String ZifyBool ZifyNat ZifyN.
From Verif Require Import Base SpecBytes SpecVM ModelVM ModelImage SpecImage ModelText SpecText ModelNames ModelParse ModelSchema SpecParse LemBase LemStr LemText
  LemImage LemLex LemParse SpecNames LemNames SpecPacket LemPacket SpecMessage LemAccept SpecNest LemNest LemNestFile.

(** Names consist of identifiers and dots *)
Fixpoint member_ids (m : member) : list (list N) :=
  match m with Flat f => [f_name f] | Nest _ _ n b => n :: flat_map member_ids b end.
Lemma text_app a b : text a -> text b -> text (a ++ b).
Proof. intros A B. apply Forall_app. auto. Qed.
Lemma text_names m : forall pre, text pre -> Forall text (member_ids m) -> Forall text (member_names pre m).
Proof.
  induction m as [f|os x n b IH] using member_induction; intros pre TP TI; cbn [member_ids member_names] in *; inversion TI as [|? ? TN TB]; subst.
  - constructor; [now apply text_app|constructor].
  - constructor; [now apply text_app|].
    assert (TQ : text (inside pre n)) by (unfold inside; apply text_app; [exact TP|]; apply text_app; [exact TN|]; constructor; [cbn; lia|constructor]).
    clear - IH TB TQ. induction IH as [|a l X F IHl]; [constructor|]. cbn [flat_map] in *. apply Forall_app in TB as (A & B). apply Forall_app. auto.
Qed.
Lemma text_all b pre : text pre -> Forall text (flat_map member_ids b) -> Forall text (flat_map (member_names pre) b).
Proof.
  intros TP. induction b as [|m b IH]; intros TI; [constructor|]. cbn [flat_map] in *. apply Forall_app in TI as (A & B). apply Forall_app. split; [now apply text_names|auto].
Qed.
Section Ids.
  Variable P : list N -> Prop.
  Definition words_ok (ws : list word) : Prop := forall s, In (TIdentifier, s) ws -> P s.
  Lemma words_app a b : words_ok (a ++ b) -> words_ok a /\ words_ok b.
  Proof. intros K. split; intros s I; apply K; apply in_or_app; auto. Qed.
  Lemma member_words env m ws : member_read env m ws -> words_ok ws -> (forall s b, In (s, b) env -> Forall P (flat_map member_ids b)) -> Forall P (member_ids m).
  Proof.
    intros [f w (os & a & b & _ & _ & ->)|os o x n b s w OR IE XR] K KE; cbn [member_ids].
    - constructor; [|constructor]. apply K. apply in_or_app. right. apply in_or_app. right. now left.
    - constructor; [|eapply KE; eauto]. apply K. apply in_or_app. right. cbn. auto.
  Qed.
  Lemma members_words env b ws : members_read env b ws -> words_ok ws -> (forall s b, In (s, b) env -> Forall P (flat_map member_ids b)) -> Forall P (flat_map member_ids b).
  Proof.
    intros R K KE. induction R as [|m l ws wr MR R IH]; [constructor|]. apply words_app in K as (A & B). cbn [flat_map]. apply Forall_app. split; [eapply member_words; eauto|auto].
  Qed.
  Lemma structs_words env l ws : structs_read env l ws -> words_ok ws -> (forall s b, In (s, b) env -> Forall P (flat_map member_ids b)) ->
    forall s b, In (s, b) (env ++ l) -> Forall P (flat_map member_ids b).
  Proof.
    induction 1 as [env|env s b l ws sc wr MR N1 N2 N3 SC R IH]; intros K KE s' b' I; [rewrite app_nil_r in I; eauto|].
    apply words_app in K as (_ & K). apply words_app in K as (K1 & K). apply words_app in K as (_ & K). apply words_app in K as (_ & K).
    apply (IH K) with (s := s'); [|rewrite <- app_assoc; exact I]. intros s0 b0 J. apply in_app_iff in J as [J|[J|[]]]; [eauto|]. injection J as <- <-. eapply members_words; eauto.
  Qed.
End Ids.
Lemma schema_text E path k toks : holds_schema E path k toks -> Forall text (all_names k).
Proof.
  intros (src & ws & RD & LX & M & (sw & os & fw & SR & OR & FR & NN & ND & EW)).
  assert (T : tokens_of 0 src toks).
  { destruct (lex_from_spec (Datatypes.S (length src)) src 0 1 ltac:(lia)) as (ts & L & T). unfold lex in LX. rewrite L in LX. injection LX as <-. exact T. }
  assert (K : words_ok text ws) by (intros s I; apply alnum_text, (token_names _ _ _ T); rewrite M; apply in_or_app; now left).
  rewrite EW in K. apply words_app in K as (K1 & K). apply words_app in K as (_ & K). apply words_app in K as (K2 & K). apply words_app in K as (K3 & _).
  assert (KE : forall s b, In (s, b) (sc_structs k) -> Forall text (flat_map member_ids b)) by (apply (structs_words text [] _ sw SR K1); intros ? ? []).
  apply Forall_app. split; [|apply Forall_app; split].
  - apply Forall_forall. intros n I. apply in_flat_map in I as ((s & b) & I & J). apply (proj1 (Forall_forall _ _) (text_all b [] ltac:(constructor) (KE s b I))). exact J.
  - apply text_all; [constructor|]. eapply members_words; eauto.
  - constructor; [|constructor]. apply K2. cbn. auto.
Qed.

Lemma schema_wire E path k toks : holds_schema E path k toks ->
  Forall (fun n => lenN n <= 255) (all_names k) -> lenN (all_names k) <= 65535 -> 16 + table_bytes (schema_names k) < 2 ^ 32 ->
  exists im pr id, (forall fuel, (length toks < fuel)%nat -> compile_file E fuel path = CImage im) /\
    load_il im = Ok (Loaded pr) /\
    (forall n, In n (schema_names k) -> exists p, get_key_name im pr (id n) = Ok (Some p) /\ string_at im p n) /\
    (forall n, In n (schema_names k) -> id n < lenN (schema_names k)) /\
    sub im (pr_bytecode pr) (pr_bytecode_len pr) = code (schema_instrs id k).
Proof.
  intros HP LB LN TB. pose proof (schema_text _ _ _ _ HP) as TX. destruct HP as (src & ws & RD & LX & M & SR).
  destruct (compile_schema E k ws path src toks SR RD LX M TX LB ltac:(lia)) as (names & ND & IN & C).
  destruct (fewer_bytes names ND (schema_names k) ltac:(intros x I; now apply IN)) as (L & B).
  assert (LS : lenN (schema_names k) <= 65535) by (unfold all_names in LN; rewrite lenN_app in LN; lia).
  assert (TN : Forall text names).
  { apply Forall_forall. intros x I. apply (proj1 (Forall_forall _ _) TX). apply in_or_app. right. now apply IN. }
  set (bc := code (schema_instrs (index_of names) k)) in *.
  exists (image names bc), (prog names bc), (index_of names). split; [exact C|]. split; [apply load_image; auto; lia|]. split; [|split].
  - intros n I. apply IN in I. pose proof (index_bound names n I) as IB. destruct (name_of names bc TN ltac:(lia) ltac:(lia) _ IB) as (p & A & D).
    exists p. split; [exact A|]. now rewrite nth_index in D.
  - intros n I. apply IN in I. pose proof (index_bound names n I). lia.
  - apply prog_code; auto; lia.
Qed.
