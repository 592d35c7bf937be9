(** Compiled packets, run with any packet and any host, come to an end. *)
From Coq Require Import ZifyBool ZifyNat ZifyN.
From Verif Require Import Base SpecBytes LemBase ModelWord ModelFloat ModelVM SpecVM ModelText SpecText ModelParse ModelSchema ModelImage SpecImage LemImage SpecParse LemParse SpecNames SpecPacket LemPacket
  SpecMessage LemMessage LemSend LemAccept SpecNest LemNest LemNestFile LemNestWire LemNestRun SpecParts LemParts LemPartsFile LemPartsWire LemPartsRun LemInspectFile
  LemHostile SpecHostile LemHostileFile LemHalts SpecHalts.
From Verif Require SpecArrays LemArrays LemArraysRun LemHostileLists.
Local Open Scope N_scope.

(** ** Good lists *)
Lemma lead_app a b : lead a -> lead (a ++ b).
Proof. intros (pre & c & rest & -> & S & T). exists pre, c, (rest ++ b). split; [now rewrite <- app_assoc|auto]. Qed.
Lemma lead_cons i l : straight i -> lead l -> lead (i :: l).
Proof. intros S (pre & c & rest & -> & F & T). exists (i :: pre), c, rest. split; [reflexivity|]. split; [now constructor|exact T]. Qed.
Lemma lead_first c l : takes (classify (opcode c)) = true -> lead (c :: l).
Proof. intros T. exists [], c, l. split; [reflexivity|]. split; [constructor|exact T]. Qed.
Lemma good_nil : good []. Proof. intros a i b E. destruct a; discriminate. Qed.
Lemma good_cons i l : (opens_array (classify (opcode i)) = true -> lead l) -> good l -> good (i :: l).
Proof. intros A B a j b E O. destruct a as [|x a]; injection E as <- E; [subst; auto|exact (B a j b E O)]. Qed.
Lemma good_app a b : good a -> good b -> good (a ++ b).
Proof.
  induction a as [|i a IH]; intros A B; [exact B|]. cbn [app]. apply good_cons.
  - intros O. apply lead_app. exact (A [] i a eq_refl O).
  - apply IH; [|exact B]. intros x j y E O. exact (A (i :: x) j y ltac:(now rewrite E) O).
Qed.
Lemma good_none l : Forall (fun i => opens_array (classify (opcode i)) = false) l -> good l.
Proof. intros F a i b -> O. rewrite Forall_app in F. destruct F as (_ & F). inversion F; subst. congruence. Qed.
Lemma good_one i : opens_array (classify (opcode i)) = false -> good [i].
Proof. intros O. apply good_none. now constructor. Qed.
Lemma good_marked big l : good l -> good (marked big l).
Proof. intros G. destruct big; [|exact G]. cbn [marked]. apply good_app; [now apply good_one|]. apply good_app; [exact G|now apply good_one]. Qed.
Lemma lead_marked big l : lead l -> lead (marked big l).
Proof. intros G. destruct big; [|exact G]. cbn [marked app]. apply lead_cons; [reflexivity|]. now apply lead_app. Qed.
Lemma type_takes ty : 0x10 <= ty <= 0x1A -> takes (classify ty) = true.
Proof.
  intros T. assert (O : ty = 0x10 \/ ty = 0x11 \/ ty = 0x12 \/ ty = 0x13 \/ ty = 0x14 \/ ty = 0x15 \/ ty = 0x16 \/ ty = 0x17 \/ ty = 0x18 \/ ty = 0x19 \/ ty = 0x1A) by lia.
  repeat (destruct O as [-> |O]; [reflexivity|]). now rewrite O.
Qed.
Lemma takes_closed c : takes c = true -> opens_array c = false. Proof. destruct c; try discriminate; reflexivity. Qed.

(** ** Members *)
Lemma string_takes w : takes (classify (string_op w)) = true. Proof. unfold string_op. destruct w as [|[[]|[]|]]; reflexivity. Qed.
Lemma content_good c k : content_wf c -> good (content_instrs c k).
Proof.
  intros W. destruct c as [ty [|m|w]|m|w]; cbn [content_instrs content_wf] in *.
  - apply good_one. apply takes_closed, type_takes. tauto.
  - apply good_cons; [intros _; apply lead_first, type_takes; tauto|]. apply good_cons; [intros O; exfalso; cbn [ins opcode] in O; rewrite takes_closed in O by (apply type_takes; tauto); discriminate|now apply good_one].
  - apply good_cons; [intros _; apply lead_first, type_takes; tauto|]. apply good_cons; [intros O; exfalso; cbn [ins opcode] in O; rewrite takes_closed in O by (apply type_takes; tauto); discriminate|now apply good_one].
  - now apply good_one.
  - apply good_one. apply takes_closed, string_takes.
Qed.
Lemma content_lead c k : content_wf c -> arrayless_content c -> lead (content_instrs c k).
Proof.
  intros W A. destruct c as [ty [|m|w]|m|w]; cbn [content_instrs content_wf arrayless_content] in *; try contradiction; apply lead_first.
  - apply type_takes. tauto.
  - reflexivity.
  - apply string_takes.
Qed.
Lemma member_lead id m : forall pre, member_plain m -> starts_with_field m -> lead (member_instrs id pre m).
Proof.
  induction m as [f|os x n b IH] using member_induction; intros pre W A; cbn [member_instrs member_plain starts_with_field] in *; apply lead_marked.
  - now apply content_lead.
  - destruct A as (-> & A). destruct W as (_ & W). destruct b as [|a b]; [contradiction|]. cbn [repeated app flat_map every] in *. apply lead_cons; [reflexivity|].
    rewrite <- !app_assoc. apply lead_app. inversion IH; subst. apply H1; tauto.
Qed.
Lemma member_good id m : forall pre, member_plain m -> repeats_fields m -> good (member_instrs id pre m).
Proof.
  induction m as [f|os x n b IH] using member_induction; intros pre W A; cbn [member_instrs member_plain repeats_fields] in *; apply good_marked.
  - now apply content_good.
  - destruct W as (_ & W). destruct A as (A & R).
    assert (G : good ([ins 0x03 [id (pre ++ n)] []] ++ flat_map (member_instrs id (inside pre n)) b ++ [ins 0x04 [] []])).
    { apply good_app; [now apply good_one|]. apply good_app; [|now apply good_one]. apply every_forall in W. apply every_forall in R.
      clear - IH W R. induction IH as [|a l X F IHl]; [apply good_nil|]. inversion W; subst. inversion R; subst. cbn [flat_map]. apply good_app; auto. }
    assert (L : x <> One -> lead (([ins 0x03 [id (pre ++ n)] []] ++ flat_map (member_instrs id (inside pre n)) b ++ [ins 0x04 [] []]) ++ [ins 0x38 [] []])).
    { intros NX. specialize (A NX). destruct b as [|a b]; [contradiction|]. cbn [app flat_map every] in *. apply lead_cons; [reflexivity|]. rewrite <- !app_assoc. apply lead_app. apply member_lead; tauto. }
    destruct x as [|c|w]; cbn [repeated]; [exact G| |]; (apply good_cons; [intros _; apply L; discriminate|apply good_app; [exact G|now apply good_one]]).
Qed.
Lemma frame_good id k : Forall (LemPartsRun.part_plain id) (fr_parts k) -> no_empty_elements k -> good (frame_instrs id k).
Proof.
  intros PL NE. unfold frame_instrs. apply good_app.
  { apply good_none, Forall_forall. intros i I. apply in_map_iff in I as ([] & <- & _); reflexivity. }
  apply good_cons; [discriminate|]. unfold no_empty_elements in NE. induction PL as [|p l W F IH]; [apply good_nil|]. cbn [flat_map]. apply good_app; [|apply IH; intros m I; apply NE; now right].
  destruct p as [m|l0|ds n|ds ty n]; cbn [LemPartsRun.part_plain part_instrs] in *.
  - apply member_good; [exact W|]. apply NE. now left.
  - apply good_none, Forall_forall. intros i J. apply in_map_iff in J as (b & <- & J). destruct b as [[] w n|w|b]; reflexivity.
  - apply good_marked, good_one. unfold check_instr. cbn [ins opcode]. destruct (k_wide _) as [[]|]; reflexivity.
  - apply good_app; [apply good_none, Forall_forall; intros i J; apply in_map_iff in J as (b & <- & _); reflexivity|]. apply good_app.
    + apply good_none. destruct (u_conv (num_of ds)); cbn [conv_instrs]; [constructor|..]; (constructor; [reflexivity|constructor]).
    + apply good_marked, good_one. cbn [ins opcode]. apply takes_closed, type_takes. lia.
Qed.
Definition no_opt (o : N) : Prop := o <> 0x4A.
Lemma content_no_opt c k : content_wf c -> ops no_opt (content_instrs c k).
Proof.
  intros W. destruct c as [ty [|m|w]|m|w]; cbn [content_instrs content_wf] in *; repeat apply Forall_cons; try apply Forall_nil; cbn [ins opcode]; unfold no_opt, array_op, string_op; try lia; try (destruct w as [|[[]|[]|]]; discriminate).
Qed.
Lemma member_no_opt id m : forall pre, member_plain m -> ops no_opt (member_instrs id pre m).
Proof.
  induction m as [f|os x n b IH] using member_induction; intros pre W; cbn [member_instrs member_plain] in *; apply marked_ops; try discriminate.
  - now apply content_no_opt.
  - destruct W as (_ & W). apply every_forall in W.
    assert (G : ops no_opt ([ins 0x03 [id (pre ++ n)] []] ++ flat_map (member_instrs id (inside pre n)) b ++ [ins 0x04 [] []])).
    { repeat (apply Forall_app; split); try (constructor; [cbn [ins opcode]; discriminate|constructor]).
      clear - IH W. induction IH as [|a l X F IHl]; [constructor|]. inversion W; subst. cbn [flat_map]. apply Forall_app. split; [now apply X|now apply IHl]. }
    destruct x as [|c|w]; [exact G| |]; cbn [repeated]; (apply Forall_app; split; [|apply Forall_app; split; [exact G|]]); (constructor; [|constructor]); cbn [ins opcode]; unfold no_opt, array_op; try discriminate.
    destruct w as [|[[]|[]|]]; discriminate.
Qed.
Lemma frame_no_opt id k : Forall (LemPartsRun.part_plain id) (fr_parts k) -> without_optional k -> forall i, In i (frame_instrs id k) -> opcode i <> 0x4A.
Proof.
  intros PL NP. apply (frame_each (fun i => opcode i <> 0x4A)); [intros []; discriminate|discriminate|]. intros p I. pose proof (proj1 (Forall_forall _ _) PL p I) as W.
  destruct p as [m|l|ds n|ds ty n]; cbn [LemPartsRun.part_plain part_instrs] in *.
  - now apply (member_no_opt id m []).
  - apply Forall_forall. intros i J. apply in_map_iff in J as (b & <- & J). destruct b as [[] w n|w|b]; discriminate.
  - assert (K : no_opt (opcode (check_instr (crc_of ds)))) by (unfold no_opt, check_instr; cbn [ins opcode]; destruct (k_wide _) as [[]|]; discriminate).
    apply (marked_ops no_opt); [discriminate|discriminate|]. constructor; [exact K|constructor].
  - repeat (apply Forall_app; split).
    + apply Forall_forall. intros i J. apply in_map_iff in J as (b & <- & J). exfalso. apply filter_In in J as (J & B). destruct b; try discriminate. exact (NP ds ty n I J).
    + destruct (u_conv (num_of ds)); cbn [conv_instrs]; [constructor|..]; (constructor; [discriminate|constructor]).
    + apply (marked_ops no_opt); [discriminate|discriminate|]. constructor; [|constructor]. cbn [ins opcode]. unfold no_opt. lia.
Qed.

(** ** From the file *)
Lemma frame_halts E path k toks : holds_frame E path k toks ->
  Forall (fun n => lenN n <= 255) (frame_all k) -> lenN (frame_all k) <= 65535 -> 16 + table_bytes (frame_names k) < 2 ^ 32 ->
  without_arrays k \/ (few_marks k /\ without_optional k /\ no_empty_elements k) ->
  exists im pr, (forall fuel, (length toks < fuel)%nat -> compile_file E fuel path = CImage im) /\ load_il im = Ok (Loaded pr) /\
    let bc := sub im (pr_bytecode pr) (pr_bytecode_len pr) in
    forall H (host : H -> request -> H * reply) lm m data h fuel, lenN bc < 2 ^ 62 -> wf_bytes data ->
    (8 * lenN data + 1) * (lenN bc + 2 ^ 32) ^ 17 <= N.of_nat fuel -> fst (fst (run host lm bc fuel (init m data) h)) <> OutOfFuel.
Proof.
  intros HP LB LN TB AR. pose proof (frame_text _ _ _ _ HP) as TX. pose proof HP as HP'. destruct HP' as (src & ws & RD & LX & M & SR).
  destruct (compile_frame E k ws path src toks SR RD LX M TX LB ltac:(lia)) as (names & ND & IN & C).
  destruct (fewer_bytes names ND (frame_names k) ltac:(intros x I; now apply IN)) as (L & B).
  assert (LS : lenN (frame_names k) <= 65535) by (unfold frame_all in LN; rewrite !lenN_app in LN; lia).
  assert (TN : Forall text names).
  { apply Forall_forall. intros x I. apply (proj1 (Forall_forall _ _) TX). apply in_or_app. right. apply in_or_app. right. now apply IN. }
  assert (IB : small (index_of names) (lenN (frame_names k)) (frame_names k)).
  { intros n I. apply IN in I. pose proof (index_bound names n I). lia. }
  pose proof (frame_wf E path k toks names HP ltac:(lia) IN) as WF. destruct (frame_plain E path k toks _ HP LN IB) as (PL & _).
  pose proof (frame_tame _ k PL) as TM. pose proof (frame_no_array _ k PL) as NA. pose proof (frame_no_opt _ k PL) as NO. pose proof (frame_good _ k PL) as GD.
  assert (EA : few_marks k -> ends_apart (frame_instrs (index_of names) k)).
  { intros (FM & NM) i I J. apply in_app_or in J as [J|J]; [|exact (NM (index_of names) i I J)].
    pose proof (proj1 (Forall_forall _ _) WF i I) as (_ & _ & _ & _ & RF). apply in_flat_map in J as (r & J & K). pose proof (proj1 (Forall_forall _ _) RF r J) as (RL & _).
    assert (r < 56) by lia. cbn [le_bytes In] in K. rewrite N.mod_small, N.div_small in K by lia. destruct K as [K|[K|[]]]; [lia|discriminate]. }
  set (is := frame_instrs (index_of names) k) in *. set (bc := SpecNames.code is) in *.
  assert (WB : wf_bytes bc) by (apply code_wf; eapply Forall_impl; [|exact WF]; intros i (A & B' & _); auto).
  exists (image names bc), (prog names bc). split; [exact C|]. split; [apply load_image; auto; lia|]. cbv zeta. rewrite prog_code by (auto; lia).
  intros H host lm m data h fuel BL WD FU. destruct AR as [AR|(FM & OP & NE)].
  - exact (straight_ends names is WF TM (NA AR) WB BL lm H host m data h fuel WD FU).
  - exact (always_ends names is WF TM (or_introl (EA FM)) (NO OP) (GD NE) WB BL lm host m data h fuel WD FU).
Qed.

Import SpecArrays LemArrays LemArraysRun LemHostileLists.
Lemma lists_halts E path k toks : holds_lists E path k toks -> 16 + table_bytes (ls_names k) < 2 ^ 32 -> few_list_marks k ->
  exists im pr, (forall fuel, (length toks < fuel)%nat -> compile_file E fuel path = CImage im) /\ load_il im = Ok (Loaded pr) /\
    let bc := sub im (pr_bytecode pr) (pr_bytecode_len pr) in
    forall H (host : H -> request -> H * reply) lm m data h fuel, lenN bc < 2 ^ 62 -> wf_bytes data ->
    (8 * lenN data + 1) * (lenN bc + 2 ^ 32) ^ 17 <= N.of_nat fuel -> fst (fst (run host lm bc fuel (init m data) h)) <> OutOfFuel.
Proof.
  intros HP TB (FM & NM). pose proof (lists_text _ _ _ _ HP) as TK. destruct HP as (src & ws & RD & LX & M & PR & NDF).
  destruct (compile_lists E k ws path src toks PR RD LX M TK NDF ltac:(lia)) as (names & ND & IN & C).
  destruct (fewer_bytes names ND (ls_names k) ltac:(intros x I; now apply IN)) as (L & B).
  assert (TX : Forall text names) by (apply Forall_forall; intros x I; apply (proj1 (Forall_forall _ _) TK); now apply IN).
  destruct PR as (os & fs & _ & IR & _). pose proof (lists_wf k fs names IR ltac:(lia) IN) as WF. pose proof (items_read_fits _ _ IR) as FT.
  set (is := lists_instrs (index_of names) k) in *. set (bc := SpecNames.code is) in *.
  exists (image names bc), (prog names bc). split; [exact C|]. split; [apply load_image; auto; lia|]. cbv zeta. rewrite prog_code by (auto; lia).
  intros H host lm m data h fuel BL WD FU. refine (always_ends names is WF _ _ _ _ _ BL lm host m data h fuel WD FU).
  - apply (lists_ops tame); try (unfold tame; cbn [In tame_ops]; tauto). intros i I. apply what_tame. exact (proj1 (Forall_forall _ _) FT i I).
  - left. intros i I J. apply in_app_or in J as [J|J]; [|exact (NM (index_of names) i I J)].
    pose proof (proj1 (Forall_forall _ _) WF i I) as (_ & _ & _ & _ & RF). apply in_flat_map in J as (r & J & K). pose proof (proj1 (Forall_forall _ _) RF r J) as (RL & _).
    assert (r < 56) by lia. cbn [le_bytes In] in K. rewrite N.mod_small, N.div_small in K by lia. destruct K as [K|[K|[]]]; [lia|discriminate].
  - apply (lists_ops no_opt); try discriminate. intros i I. pose proof (proj1 (Forall_forall _ _) FT i I) as W. cbv beta in W. destruct (i_what i) as [c|ref ty|ty]; cbn [what_fits what_instrs] in *; [now apply content_no_opt| |];
      (constructor; [discriminate|]; constructor; [cbn [ins opcode]; unfold no_opt; lia|]; constructor; [discriminate|constructor]).
  - unfold is, lists_instrs. apply good_app; [apply good_none, Forall_forall; intros i I; apply in_map_iff in I as ([] & <- & _); reflexivity|]. apply good_cons; [discriminate|].
    clear - FT. induction FT as [|i l W F IH]; [apply good_nil|]. cbn [flat_map]. apply good_app; [|exact IH]. unfold item_instrs.
    apply good_app; [destruct (i_big i); [now apply good_one|apply good_nil]|]. apply good_app; [|destruct (i_big i); [now apply good_one|apply good_nil]].
    destruct (i_what i) as [c|ref ty|ty]; cbn [what_fits what_instrs] in *; [now apply content_good| |];
      (apply good_cons; [intros _; now apply lead_first, type_takes|]; apply good_cons; [intros O; exfalso; cbn [ins opcode] in O; rewrite takes_closed in O by (now apply type_takes); discriminate|now apply good_one]).
  - apply code_wf. eapply Forall_impl; [|exact WF]. intros i (A & B' & _). auto.
Qed.
