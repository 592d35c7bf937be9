(** C81: a packet from anybody cannot make a compiled schema run for ever. *)
From Coq Require Import Strings.String.
From Verif Require Import Base SpecBytes ModelWord ModelFloat ModelVM SpecVM ModelText SpecText ModelParse ModelSchema ModelImage SpecImage LemImage SpecParse LemParse SpecNames
  SpecPacket LemPacket SpecMessage SpecNest SpecParts SpecHostile SpecHalts LemHaltsFile Samples PropPacket PropNest PropParts PropFrames PropHostile.
From Verif Require SpecArrays PropArrays SpecSource LemHostileSource PropSource.
Local Open Scope N_scope.

(** ** C81 A packet from anybody cannot make a compiled schema run for ever *)

(** Whatever bytes are given, whatever the host answers, and in whichever direction it goes: a compiled packet comes to an end, after at
    most [(8 * length of the data + 1) * (length of the code + 2^32)^17] instructions.  There must be no arrays; or few names and no number
    written with the byte that ends an array, no optional numbers, and in every array of structures the structure begins with a field. *)
Theorem C81_ends_partial : forall E path k toks, holds_frame E path k toks ->
  Forall (fun n => lenN n <= 255) (frame_all k) -> lenN (frame_all k) <= 65535 -> 16 + table_bytes (frame_names k) < 2 ^ 32 ->
  without_arrays k \/ (few_marks k /\ without_optional k /\ no_empty_elements k) ->
  exists im pr, (forall fuel, (length toks < fuel)%nat -> compile_file E fuel path = CImage im) /\ load_il im = Ok (Loaded pr) /\
    let bc := sub im (pr_bytecode pr) (pr_bytecode_len pr) in
    forall H (host : H -> request -> H * reply) lm m data h fuel, lenN bc < 2 ^ 62 -> wf_bytes data ->
    (8 * lenN data + 1) * (lenN bc + 2 ^ 32) ^ 17 <= N.of_nat fuel -> fst (fst (run host lm bc fuel (init m data) h)) <> OutOfFuel.
Proof. exact frame_halts. Qed.
Print Assumptions C81_ends_partial.
(** The packet of C79, without arrays, and that of C59, with an array of structures *)
Example C81_ends_nonvacuous :
  (holds_frame (file src79) [] frame79 (toks_of src79) /\ without_arrays frame79 /\ lenN (program_of (chars src79)) < 2 ^ 62) /\
  (holds_frame (file src59) [] frame59 (toks_of src59) /\ ~ without_arrays frame59 /\ few_marks frame59 /\ without_optional frame59 /\ no_empty_elements frame59 /\
   lenN (program_of (chars src59)) < 2 ^ 62).
Proof.
  pose proof C80_contained_nonvacuous as (A & _ & _ & _ & B & _ & _ & C). pose proof C80_contained_nonvacuous_array as (A' & _ & _ & _ & B' & C' & D').
  split; [split; [exact A|split; [exact B|exact C]]|].
  split; [exact A'|]. split; [exact C'|]. split; [exact B'|]. split; [|split; [|exact D']].
  - intros ds ty n I. cbn in I. repeat (destruct I as [I|I]; [discriminate|]). destruct I.
  - assert (G : forall p, In p (fr_parts frame59) -> match p with Member m => repeats_fields m | _ => True end); [|intros m I; exact (G _ I)].
    apply Forall_forall. unfold frame59, parts59, point57. cbn [fr_parts app].
    repeat (apply Forall_cons; [try exact Logic.I; cbn; tauto|]). apply Forall_nil.
Qed.

(** The same for packets with arrays counted by another field and arrays up to the end of the message. *)
Theorem C81_ends_lists_partial : forall E path k toks, SpecArrays.holds_lists E path k toks -> 16 + table_bytes (SpecArrays.ls_names k) < 2 ^ 32 -> few_list_marks k ->
  exists im pr, (forall fuel, (length toks < fuel)%nat -> compile_file E fuel path = CImage im) /\ load_il im = Ok (Loaded pr) /\
    let bc := sub im (pr_bytecode pr) (pr_bytecode_len pr) in
    forall H (host : H -> request -> H * reply) lm m data h fuel, lenN bc < 2 ^ 62 -> wf_bytes data ->
    (8 * lenN data + 1) * (lenN bc + 2 ^ 32) ^ 17 <= N.of_nat fuel -> fst (fst (run host lm bc fuel (init m data) h)) <> OutOfFuel.
Proof. exact lists_halts. Qed.
Print Assumptions C81_ends_lists_partial.
Example C81_ends_lists_nonvacuous :
  SpecArrays.holds_lists (file PropArrays.src74) [] PropArrays.lists74 (toks_of PropArrays.src74) /\
  16 + table_bytes (SpecArrays.ls_names PropArrays.lists74) < 2 ^ 32 /\ few_list_marks PropArrays.lists74 /\ lenN (program_of (chars PropArrays.src74)) < 2 ^ 62.
Proof. exact C80_contained_lists_nonvacuous. Qed.

(** And for packets with constants, ranges, enumerations, conditions, computed fields and switches, provided that every name is in the
    table of the image, which is so if there are no switches and computed fields and the numbers are small (C52): it ends after at most as many
    instructions as there are bytes in the code. *)
Theorem C81_ends_source_partial : forall E path k toks, SpecSource.holds_source E path k toks ->
  lenN (SpecSource.source_names k) <= 65535 -> 16 + table_bytes (SpecSource.source_names k) < 2 ^ 32 ->
  exists im pr, (exists n, forall fuel, (n <= fuel)%nat -> compile_file E fuel path = CImage im) /\ load_il im = Ok (Loaded pr) /\
    (SpecSource.tame (SpecSource.s_body k) \/ (forall n, In n (SpecSource.source_names k) -> exists i, get_key_id im pr n = Ok i /\ i <> 0xFFFF) ->
     let bc := sub im (pr_bytecode pr) (pr_bytecode_len pr) in
     forall H (host : H -> request -> H * reply) lm m data h, lenN bc < 2 ^ 31 -> wf_bytes data ->
     forall fuel, lenN bc < N.of_nat fuel -> fst (fst (run host lm bc fuel (init m data) h)) <> OutOfFuel).
Proof.
  intros E path k toks HS LN TB. destruct (LemHostileSource.source_bounds E path k toks HS LN TB) as (im & pr & C & L & W). exists im, pr.
  split; [exact C|]. split; [exact L|]. cbv zeta. intros K H host lm m data h LB WD. exact (proj2 (W K H host lm m data h LB WD)).
Qed.
Print Assumptions C81_ends_source_partial.
Example C81_ends_source_nonvacuous :
  SpecSource.holds_source (file PropSource.src54) [] PropSource.source54 (toks_of PropSource.src54) /\
  exists im pr, compile_file (file PropSource.src54) 300 [] = CImage im /\ load_il im = Ok (Loaded pr) /\
    forall n, In n (SpecSource.source_names PropSource.source54) -> exists i, get_key_id im pr n = Ok i /\ i <> 0xFFFF.
Proof. exact (proj2 C80_contained_source_nonvacuous). Qed.

(** *** Where it fails *)

(** Full property: the same conclusion for every schema the compiler accepts.  It fails for elements that take no bytes.

    [next bc s]: the state after the next instruction, if the run goes on. *)
Definition next (bc : list N) (s : st) : option st :=
  if lenN bc <=? ip s then None else match interp Samples.quiet (step lm0 bc s) tt with (SCont s', _, _) => Some s' | _ => None end.
Lemma circle_runs bc l l' : map (next bc) l = map Some l' -> incl l' l -> forall fuel s, In s l -> fst (fst (run Samples.quiet lm0 bc fuel s tt)) = OutOfFuel.
Proof.
  intros C J. induction fuel as [|fuel IH]; intros s I; [reflexivity|]. pose proof (in_map (next bc) _ _ I) as X. rewrite C in X.
  apply in_map_iff in X as (s' & X & I'). specialize (IH s' (J _ I')). unfold next in X. cbn [run].
  destruct (lenN bc <=? ip s); [discriminate|]. destruct (interp Samples.quiet (step lm0 bc s) tt) as [[[] []] t]; try discriminate. injection X as ->.
  destruct (run Samples.quiet lm0 bc fuel s0 tt) as [[o h] u]. exact IH.
Qed.
(** The first [n] states of a run, and those that follow them when the last leads back to the third *)
Fixpoint visited (bc : list N) (n : nat) (s : st) : list st :=
  match n with O => [] | Datatypes.S n => s :: match next bc s with Some s' => visited bc n s' | None => [] end end.
Definition back (l : list st) (s : st) : list st := tl l ++ [nth 2 l s].
Lemma back_incl bc s : incl (back (visited bc 5 s) s) (visited bc 5 s).
Proof.
  intros x I. apply in_app_or in I as [I|[<-|[]]].
  - destruct (visited bc 5 s); [destruct I|right; exact I].
  - destruct (Nat.ltb 2 (length (visited bc 5 s))) eqn:E; [apply nth_In, Nat.ltb_lt, E|]. rewrite nth_overflow by (apply Nat.ltb_ge, E). left. reflexivity.
Qed.

(** A structure without fields, up to the end: one byte is enough to make decoding go on for ever. *)
Theorem C81_refuted_empty_structure : forall fuel, fst (fst (run Samples.quiet lm0 (program_of (chars "struct S { } packet P { @eof S xs[]; }")) fuel (init Dec [7]) tt)) = OutOfFuel.
Proof.
  intros fuel. apply (circle_runs _ (visited (program_of (chars "struct S { } packet P { @eof S xs[]; }")) 5 (init Dec [7])) _) with (2 := back_incl _ _); [vm_compute; reflexivity|left; reflexivity].
Qed.
Print Assumptions C81_refuted_empty_structure.
(** A four-byte counter of 2^32 - 1 is taken for "up to the end", so this happens with counted arrays too. *)
Theorem C81_refuted_counter :
  forall fuel, fst (fst (run Samples.quiet lm0 (program_of (chars "struct S { } packet P { S xs[] prefix u32; u8 c; }")) fuel (init Dec [0xFF; 0xFF; 0xFF; 0xFF; 1]) tt)) = OutOfFuel.
Proof.
  intros fuel. apply (circle_runs _ (visited (program_of (chars "struct S { } packet P { S xs[] prefix u32; u8 c; }")) 5 (init Dec [0xFF; 0xFF; 0xFF; 0xFF; 1])) _) with (2 := back_incl _ _);
    [vm_compute; reflexivity|left; reflexivity].
Qed.
Print Assumptions C81_refuted_counter.
