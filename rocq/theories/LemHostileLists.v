(** Compiled packets with counted arrays and arrays up to the end of the message, run with any packet and any host. *)
From Coq Require Import ZifyBool ZifyNat ZifyN.
From Verif Require Import Base SpecBytes LemBase ModelWord ModelFloat ModelVM SpecVM ModelText SpecText ModelParse ModelSchema ModelImage SpecImage LemImage SpecParse LemParse SpecNames SpecPacket LemPacket
  SpecMessage LemMessage LemSend LemAccept LemInspectFile LemHostile SpecHostile LemHostileFile SpecArrays LemArrays LemArraysRun.
Local Open Scope N_scope.

Lemma what_tame id w k : what_fits w -> ops tame (what_instrs id w k).
Proof.
  assert (T : forall ty, 0x10 <= ty <= 0x1A -> tame ty) by (intros ty T; unfold tame; cbn [In tame_ops]; lia).
  destruct w as [c|ref ty|ty]; cbn [what_fits what_instrs]; intros W.
  - apply easy_tame. now apply content_easy.
  - constructor; [unfold tame; cbn [ins opcode In tame_ops]; tauto|]. constructor; [now apply T|]. constructor; [unfold tame; cbn [ins opcode In tame_ops]; tauto|constructor].
  - constructor; [unfold tame; cbn [ins opcode In tame_ops]; tauto|]. constructor; [now apply T|]. constructor; [unfold tame; cbn [ins opcode In tame_ops]; tauto|constructor].
Qed.
Lemma what_no_pad id w k : what_fits w -> ops no_pad (what_instrs id w k).
Proof.
  destruct w as [c|ref ty|ty]; cbn [what_fits what_instrs]; intros W; [now apply content_no_pad| |];
    (constructor; [discriminate|]; constructor; [now apply type_ops|]; constructor; [discriminate|constructor]).
Qed.
Lemma lists_ops (P : N -> Prop) id k : P 0x01 -> P 0x02 -> P 0x07 -> (forall i, In i (ls_items k) -> ops P (what_instrs id (i_what i) (id (i_name i)))) ->
  forall i, In i (lists_instrs id k) -> P (opcode i).
Proof.
  intros A B D W i I. unfold lists_instrs in I. apply in_app_or in I as [I|[<-|I]].
  - apply in_map_iff in I as ([] & <- & _); assumption.
  - exact D.
  - apply in_flat_map in I as (x & I & J). unfold item_instrs in J. apply in_app_or in J as [J|J]; [destruct (i_big x); [destruct J as [<-|[]]; exact B|destruct J]|].
    apply in_app_or in J as [J|J]; [exact (proj1 (Forall_forall _ _) (W x I) i J)|]. destruct (i_big x); [destruct J as [<-|[]]; exact A|destruct J].
Qed.
Lemma lists_wf k ws names : items_read (ls_items k) ws -> lenN names <= 65535 -> (forall s, In s names <-> In s (ls_names k)) ->
  Forall (well_formed names) (lists_instrs (index_of names) k).
Proof.
  intros IR LN IN. pose proof (lists_syms k (items_ok _ _ IR)) as SO.
  rewrite lists_sym_ok. apply Forall_forall. intros i I. apply in_map_iff in I as (x & <- & I). pose proof (proj1 (Forall_forall _ _) SO x I) as O.
  assert (Q : Forall (fun n => In n names) (snd (fst x))) by (apply Forall_forall; intros n J; apply IN, lists_sym_names; eauto).
  destruct x as [[op ns] a]. cbn [sym_ok fst snd] in O, Q. destruct O as (O1 & O2 & O3 & O4 & O5).
  split; [exact O1|]. split; [exact O2|]. split; [exact O3|]. cbn [inst ins refs opcode fst snd]. split; [unfold lenN in *; now rewrite map_length|].
  apply Forall_forall. intros z Z. apply in_map_iff in Z as (n & <- & J). pose proof (index_bound names n (proj1 (Forall_forall _ _) Q n J)). lia.
Qed.

Lemma lists_safe E path k toks : holds_lists E path k toks -> 16 + table_bytes (ls_names k) < 2 ^ 32 -> few_list_marks k ->
  exists im pr, (forall fuel, (length toks < fuel)%nat -> compile_file E fuel path = CImage im) /\ load_il im = Ok (Loaded pr) /\
    let bc := sub im (pr_bytecode pr) (pr_bytecode_len pr) in
    forall H (host : H -> request -> H * reply) lm m data h fuel o h' t, lenN bc < 2 ^ 62 -> wf_bytes data ->
    run host lm bc fuel (init m data) h = (o, h', t) ->
    (o <> Crash UData /\ o <> Crash UIl /\ o <> Crash UStack) /\ (forall rq r p l, In (rq, r) t -> rq_pl rq = PBuf p l -> p + lenN l <= lenN data).
Proof.
  intros HP TB (FM & NM). pose proof (lists_text _ _ _ _ HP) as TK. destruct HP as (src & ws & RD & LX & M & PR & NDF).
  destruct (compile_lists E k ws path src toks PR RD LX M TK NDF ltac:(lia)) as (names & ND & IN & C).
  destruct (fewer_bytes names ND (ls_names k) ltac:(intros x I; now apply IN)) as (L & B).
  assert (TX : Forall text names) by (apply Forall_forall; intros x I; apply (proj1 (Forall_forall _ _) TK); now apply IN).
  destruct PR as (os & fs & _ & IR & _). pose proof (lists_wf k fs names IR ltac:(lia) IN) as WF. pose proof (items_read_fits _ _ IR) as FT.
  set (is := lists_instrs (index_of names) k) in *. set (bc := SpecNames.code is) in *.
  exists (image names bc), (prog names bc). split; [exact C|]. split; [apply load_image; auto; lia|]. cbv zeta. rewrite prog_code by (auto; lia).
  intros H host lm m data h fuel o h' t BL WD R.
  assert (TM : forall i, In i is -> In (opcode i) tame_ops).
  { apply (lists_ops tame); try (unfold tame; cbn [In tame_ops]; tauto). intros i I. apply what_tame. exact (proj1 (Forall_forall _ _) FT i I). }
  eapply (never_leaves names is WF TM); try eassumption.
  - left. intros i I J. apply in_app_or in J as [J|J]; [|exact (NM (index_of names) i I J)].
    pose proof (proj1 (Forall_forall _ _) WF i I) as (_ & _ & _ & _ & RF). apply in_flat_map in J as (r & J & K). pose proof (proj1 (Forall_forall _ _) RF r J) as (RL & _).
    assert (r < 56) by lia. cbn [le_bytes In] in K. rewrite N.mod_small, N.div_small in K by lia. destruct K as [K|[K|[]]]; [lia|discriminate].
  - apply code_wf. eapply Forall_impl; [|exact WF]. intros i (A & B' & _). auto.
  - intros _. apply (lists_ops no_pad); try discriminate. intros i I. apply what_no_pad. exact (proj1 (Forall_forall _ _) FT i I).
Qed.
