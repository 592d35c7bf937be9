(** The verifier on compiled packets. *)
From Coq Require Import Strings.String.
From Verif Require Import Base SpecBytes LemBase SpecVM ModelVM ModelText SpecText LemLex ModelParse ModelSchema ModelImage SpecImage LemImage ModelWord ModelFloat SpecParse LemParse SpecNames LemNames
  SpecVerify ModelVerify LemVerify SpecPacket SpecFlow LemFlow LemLayout LemPacket LemSend.
Ltac Zify.zify_post_hook ::= Z.div_mod_to_equations.

(** An instruction the verifier sees as the interpreter does, and that does not jump *)
Definition simple (i : instr) : Prop := size_of (opcode i) = Some (lenN (instr_bytes i)) /\ (opcode i < 0x50 \/ 0x53 < opcode i).

Lemma simple_walk bc p : Forall simple p -> forall q, placed bc q (code p) -> q + lenN (code p) = lenN bc ->
  exists l, instrs bc q l.
Proof.
  induction 1 as [|i p (S & NJ) F IH]; intros q P E.
  - exists []. change (lenN (code [])) with 0 in E. replace q with (lenN bc) by lia. constructor.
  - change (code (i :: p)) with (instr_bytes i ++ code p) in *. apply placed_app in P as (P1 & P2). rewrite lenN_app in E.
    destruct (IH _ P2 ltac:(lia)) as (l & L). exists (q :: l). econstructor; [|exact L].
    assert (O : nthN bc q = opcode i).
    { unfold instr_bytes in P1. change (opcode i :: ?x) with ([opcode i] ++ x) in P1. apply placed_app in P1 as (P1 & _).
      apply placed_split in P1 as (a & b & A & B). rewrite A, <- B. unfold nthN. rewrite app_nth2; unfold lenN; [|lia].
      replace (N.to_nat _ - _)%nat with 0%nat by lia. reflexivity. }
    split; [now rewrite O|]. split; [lia|]. rewrite O. repeat split; intros; lia.
Qed.

Lemma ins_len op rs a : lenN (instr_bytes (ins op rs a)) = 1 + 2 * lenN rs + lenN a.
Proof.
  unfold instr_bytes, ins. cbn [opcode refs args]. rewrite lenN_cons, lenN_app.
  assert (G : lenN (flat_map (le_bytes 2) rs) = 2 * lenN rs).
  { induction rs as [|r rs IH]; [reflexivity|]. cbn [flat_map]. rewrite lenN_app, IH, lenN_cons. change (lenN (le_bytes 2 r)) with 2. lia. }
  rewrite G. lia.
Qed.
Ltac simple_it := split; [rewrite ins_len; reflexivity|cbn [ins opcode]; lia].
Lemma type_simple ty k : 0x10 <= ty <= 0x1A -> simple (ins ty [k] []).
Proof.
  intros B. assert (ty = 16 \/ ty = 17 \/ ty = 18 \/ ty = 19 \/ ty = 20 \/ ty = 21 \/ ty = 22 \/ ty = 23 \/ ty = 24 \/ ty = 25 \/ ty = 26) as C by lia.
  repeat (destruct C as [-> | C]; [simple_it|]). subst ty. simple_it.
Qed.
Lemma content_simple c k : content_ok c -> Forall simple (content_instrs c k).
Proof.
  intros O. destruct c as [ty [|m|w]|m|w]; cbn [content_instrs content_ok] in *; repeat apply Forall_cons; try apply Forall_nil; auto using type_simple; try simple_it.
  - unfold array_op. destruct w as [|[[]|[]|]]; simple_it.
  - unfold string_op. destruct w as [|[[]|[]|]]; simple_it.
Qed.
Lemma fields_simple id fs : Forall (fun f => content_ok (f_content f)) fs -> Forall simple (flat_map (field_instrs id) fs).
Proof.
  induction 1 as [|f fs O F IH]; [constructor|]. cbn [flat_map]. apply Forall_app. split; [|exact IH]. unfold field_instrs.
  repeat (apply Forall_app; split); try (destruct (f_big f); constructor; [simple_it|constructor]). now apply content_simple.
Qed.
(** The verifier takes the name instruction for three one-byte instructions when the number of the name is small *)
Lemma accept_packet id k fuel : Forall (fun f => content_ok (f_content f)) (pk_fields k) -> id (pk_name k) < 6 ->
  let bc := code (packet_instrs id k) in lenN bc < 2 ^ 32 - 32 -> lenN bc < N.of_nat fuel -> verify fuel bc = Verdict EOk.
Proof.
  intros F I bc L LF.
  assert (W : wf_bytes bc).
  { unfold bc. apply code_wf. rewrite packet_sym_ok. apply Forall_forall. intros i J. apply in_map_iff in J as (x & <- & J).
    pose proof (proj1 (Forall_forall _ _) (packet_syms k F) x J) as O. destruct x as [[op ns] a]. cbn [sym_ok] in O. split; [apply O|apply O]. }
  apply (verify_accepts bc W L fuel LF). set (q := id (pk_name k)).
  set (p := map (fun b : bool => ins (if b then 0x02 else 0x01) [] []) (pk_orders k) ++ [ins 7 [] []; ins q [] []; ins 0 [] []] ++ flat_map (field_instrs id) (pk_fields k)).
  assert (E : bc = code p).
  { unfold bc, p. rewrite packet_code, !code_app. f_equal. f_equal. fold q. assert (q = 0 \/ q = 1 \/ q = 2 \/ q = 3 \/ q = 4 \/ q = 5) as C by (unfold q; lia).
    decompose [or] C; subst; repeat match goal with H : q = _ |- _ => rewrite H end; reflexivity. }
  apply (simple_walk bc p); [|rewrite E; apply placed_split; exists [], []; rewrite app_nil_r; auto|rewrite E; reflexivity].
  unfold p. repeat (apply Forall_app; split).
  - apply Forall_forall. intros x J. apply in_map_iff in J as (b & <- & _). destruct b; simple_it.
  - repeat apply Forall_cons; try apply Forall_nil; try simple_it. split; [|cbn [ins opcode]; lia]. rewrite ins_len. cbn [ins opcode].
    assert (q = 0 \/ q = 1 \/ q = 2 \/ q = 3 \/ q = 4 \/ q = 5) as C by (unfold q; lia).
    decompose [or] C; repeat match goal with H : q = _ |- _ => rewrite H; clear H end; reflexivity.
  - now apply fields_simple.
Qed.

(** ** From the source to the wire *)
(** Names are identifiers *)
Lemma token_names pos l ts : tokens_of pos l ts -> forall s, In (TIdentifier, s) (map word_of ts) -> all is_alnum s.
Proof.
  induction 1 as [pos g e B K X P|pos g t before after r ts B P X T IH]; intros s I; cbn [map In] in I; destruct I as [I|I]; auto.
  - unfold word_of in I. rewrite K in I. discriminate.
  - contradiction.
  - unfold word_of in I. injection I as K <-. rewrite K in P. inversion P as [k s r' S E1 E2 E3 E4| | |]; subst. inversion S as [? ? ? I|? ? ? I|c s ? A D| |]; subst.
    + cbn [symbols In] in I. repeat (destruct I as [I|I]; [discriminate|]). contradiction.
    + cbn [words In] in I. repeat (destruct I as [I|I]; [discriminate|]). contradiction.
    + constructor; [unfold is_alnum; now rewrite A|exact D].
Qed.
Lemma read_names k ws n : packet_read k ws -> In n (pk_names k) -> In (TIdentifier, n) ws.
Proof.
  intros (os & fs & _ & FR & ->) I. apply in_or_app. right. unfold pk_names in I. apply in_app_iff in I as [I|[<-|[]]]; [|cbn; auto].
  apply in_or_app. right. apply in_or_app. left. induction FR as [|f l ws wr (os' & a & b & _ & _ & ->) FR IH]; [contradiction|]. apply in_or_app.
  destruct I as [<-|I]; [left|right; auto]. apply in_or_app. right. apply in_or_app. right. now left.
Qed.
Lemma held_names E path k toks : holds_packet E path k toks -> Forall (all is_alnum) (pk_names k).
Proof.
  intros (src & ws & RD & LX & M & PR & ND). apply Forall_forall. intros n I. apply (read_names k ws n PR) in I.
  assert (T : tokens_of 0 src toks).
  { destruct (lex_from_spec (Datatypes.S (length src)) src 0 1 ltac:(lia)) as (ts & L & T). unfold lex in LX. rewrite L in LX. injection LX as <-. exact T. }
  apply (token_names _ _ _ T). rewrite M. apply in_or_app. now left.
Qed.
Lemma alnum_text n : all is_alnum n -> text n.
Proof. apply Forall_impl. intros c. unfold is_alnum, is_alpha, is_digit. lia. Qed.
Lemma held_text E path k toks : holds_packet E path k toks -> Forall text (pk_names k).
Proof. intros HP. eapply Forall_impl; [|eapply held_names; eauto]. exact alnum_text. Qed.

Lemma compile_held E path k toks : holds_packet E path k toks -> lenN (pk_names k) <= 65536 ->
  exists names, NoDup names /\ (forall s, In s names <-> In s (pk_names k)) /\
    forall fuel, (length toks < fuel)%nat -> compile_file E fuel path = CImage (image names (code (packet_instrs (index_of names) k))).
Proof. intros HP L. pose proof (held_text _ _ _ _ HP) as TX. destruct HP as (src & ws & RD & LX & M & PR & ND). eapply compile_packet; eauto. Qed.

Lemma table_bytes_app a b : table_bytes (a ++ b) = table_bytes a + table_bytes b.
Proof. induction a as [|x a IH]; [reflexivity|]. cbn [app table_bytes fold_right]. fold (table_bytes (a ++ b)) (table_bytes a). lia. Qed.
Lemma fewer_bytes a : NoDup a -> forall b, incl a b -> lenN a <= lenN b /\ table_bytes a <= table_bytes b.
Proof.
  induction 1 as [|x a NI ND IH]; intros b I; [change (lenN []) with 0; change (table_bytes []) with 0; lia|].
  destruct (in_split x b (I x (or_introl eq_refl))) as (b1 & b2 & ->).
  destruct (IH (b1 ++ b2)) as (L & B).
  { intros y J. pose proof (I y (or_intror J)) as K. apply in_app_iff in K as [K|[K|K]]; apply in_or_app; auto. subst. contradiction. }
  rewrite table_bytes_app in *. rewrite lenN_app in *. rewrite !lenN_cons. cbn [table_bytes fold_right]. fold (table_bytes a) (table_bytes b2). lia.
Qed.

Lemma packet_wire E path k toks : holds_packet E path k toks ->
  lenN (pk_names k) <= 65535 -> 16 + table_bytes (pk_names k) < 2 ^ 32 ->
  exists im pr id, (forall fuel, (length toks < fuel)%nat -> compile_file E fuel path = CImage im) /\
    load_il im = Ok (Loaded pr) /\
    (forall n, In n (pk_names k) -> exists p, get_key_name im pr (id n) = Ok (Some p) /\ string_at im p n) /\
    (forall n, In n (pk_names k) -> id n < lenN (pk_names k)) /\
    sub im (pr_bytecode pr) (pr_bytecode_len pr) = code (packet_instrs id k).
Proof.
  intros HP LN TB. destruct (compile_held E path k toks HP ltac:(lia)) as (names & ND & IN & C).
  destruct (fewer_bytes names ND (pk_names k) ltac:(intros x I; now apply IN)) as (L & B).
  assert (TX : Forall text names).
  { pose proof (held_text _ _ _ _ HP) as TX. apply Forall_forall. intros x I. apply (proj1 (Forall_forall _ _) TX). now apply IN. }
  set (bc := code (packet_instrs (index_of names) k)) in *.
  exists (image names bc), (prog names bc), (index_of names). split; [exact C|]. split; [apply load_image; auto; lia|]. split; [|split].
  - intros n I. apply IN in I. pose proof (index_bound names n I) as IB. destruct (name_of names bc TX ltac:(lia) ltac:(lia) _ IB) as (p & A & D).
    exists p. split; [exact A|]. now rewrite nth_index in D.
  - intros n I. apply IN in I. pose proof (index_bound names n I). lia.
  - apply prog_code; auto; lia.
Qed.
