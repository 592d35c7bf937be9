(** Packets with constants, ranges, enumerations, conditions, computed fields and switches: any packet and any host leave them within their
    memory, and let them come to an end. *)
From Coq Require Import ZifyBool ZifyNat ZifyN.
From Verif Require Import Base SpecBytes LemBase ModelWord ModelFloat ModelVM SpecVM LemAct LemRun LemSafe ModelText SpecText ModelParse ModelSchema ModelImage SpecImage
  SpecParse LemParse SpecNames SpecSource LemSource LemCompile LemMeaning LemRound.
Ltac Zify.zify_post_hook ::= Z.div_mod_to_equations.
Local Open Scope N_scope.

(** Whatever the program: a block lent to the host lies within the data *)
Lemma lent_within {H} (host : H -> request -> H * reply) lm bc m data h fuel o h' t : wf_bytes bc -> lenN bc < 2 ^ 62 -> wf_bytes data ->
  run host lm bc fuel (init m data) h = (o, h', t) -> forall rq r p l, In (rq, r) t -> rq_pl rq = PBuf p l -> p + lenN l <= lenN data.
Proof.
  intros WB BL WD R. change (lenN data) with (dlen (init m data)). eapply (events_lent host lm bc False False False); eauto; try tauto. now apply init_Inv.
Qed.

Lemma source_shape E path k toks : holds_source E path k toks -> lenN (source_names k) <= 65535 -> 16 + table_bytes (source_names k) < 2 ^ 32 ->
  exists im pr, (exists n, forall fuel, (n <= fuel)%nat -> compile_file E fuel path = CImage im) /\ load_il im = Ok (Loaded pr) /\
    (tame (s_body k) \/ (forall n, In n (source_names k) -> exists i, get_key_id im pr n = Ok i /\ i <> 0xFFFF) ->
     exists id, Forall (fun n => id n < 2 ^ 16) (source_names k) /\ sub im (pr_bytecode pr) (pr_bytecode_len pr) = syms_code id (source_sym k)).
Proof.
  intros HS LN TB. destruct (whole_wire E path k toks HS LN TB) as (im & pr & (n & C) & L & W). exists im, pr. split; [exists n; exact C|]. split; [exact L|].
  assert (G : forall id, (forall x, In x (source_names k) -> id x < lenN (source_names k)) -> Forall (fun x => id x < 2 ^ 16) (source_names k)).
  { intros id IB. apply Forall_forall. intros x I. specialize (IB x I). change (2 ^ 16) with 65536. lia. }
  intros [TM|KN].
  - destruct (source_wire E path k toks HS TM LN TB) as (im' & pr' & id & (n' & C') & L' & _ & IB & _ & BC).
    pose proof (C (n + n')%nat ltac:(lia)) as X. rewrite (C' (n + n')%nat ltac:(lia)) in X. injection X as ->. rewrite L in L'. injection L' as <-.
    exists id. split; [apply G, IB|exact BC].
  - set (id := fun x => match get_key_id im pr x with Ok i => i | _ => 0 end). exists id.
    destruct (W id) as (IB & _ & BC). { intros x I. destruct (KN x I) as (i & KI & NI). unfold id. rewrite KI. auto. }
    split; [apply G, IB|exact BC].
Qed.

Lemma source_bounds E path k toks : holds_source E path k toks -> lenN (source_names k) <= 65535 -> 16 + table_bytes (source_names k) < 2 ^ 32 ->
  exists im pr, (exists n, forall fuel, (n <= fuel)%nat -> compile_file E fuel path = CImage im) /\ load_il im = Ok (Loaded pr) /\
    (tame (s_body k) \/ (forall n, In n (source_names k) -> exists i, get_key_id im pr n = Ok i /\ i <> 0xFFFF) ->
     let bc := sub im (pr_bytecode pr) (pr_bytecode_len pr) in
     forall H (host : H -> request -> H * reply) lm m data h, lenN bc < 2 ^ 31 -> wf_bytes data ->
     (forall fuel o h' t, run host lm bc fuel (init m data) h = (o, h', t) ->
       (o <> Crash UData /\ o <> Crash UIl /\ o <> Crash UStack) /\
       (forall rq r p l, In (rq, r) t -> rq_pl rq = PBuf p l -> p + lenN l <= lenN data)) /\
     forall fuel, lenN bc < N.of_nat fuel -> fst (fst (run host lm bc fuel (init m data) h)) <> OutOfFuel).
Proof.
  intros HS LN TB. destruct (source_shape E path k toks HS LN TB) as (im & pr & C & L & W). exists im, pr. split; [exact C|]. split; [exact L|].
  intros K. destruct (W K) as (id & IB & BC). cbv zeta. rewrite BC. intros H host lm m data h LB WD. destruct HS as (src & ws & _ & _ & _ & R & _).
  destruct (source_contained host lm id k ws m data h R IB LB WD) as (WB & o & h' & t & K' & RN). split.
  - intros fuel o2 h2 t2 RU. split; [|eapply lent_within; [exact WB|change (2 ^ 62) with (2 ^ 31 * 2 ^ 31); lia|exact WD|exact RU]].
    set (n := N.to_nat (lenN (syms_code id (source_sym k)) + 1)). assert (X : o2 = OutOfFuel \/ o2 = o).
    { assert (D : o2 = OutOfFuel \/ o2 <> OutOfFuel) by (destruct o2; [right|right|left]; congruence). destruct D as [D|D]; [auto|right].
      pose proof (run_more host lm _ fuel _ _ _ _ _ RU D (n + fuel)%nat ltac:(lia)) as A. rewrite (RN (n + fuel)%nat ltac:(unfold n; lia)) in A. congruence. }
    destruct X as [-> | ->]; [repeat split; discriminate|]. destruct o; try (repeat split; discriminate). destruct K' as [-> | ->]; repeat split; discriminate.
  - intros fuel LE'. rewrite (RN fuel LE'). cbn [fst]. destruct o; [discriminate|discriminate|destruct K'].
Qed.
