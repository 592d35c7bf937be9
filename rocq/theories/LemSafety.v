(** Proofs behind PropSafety.v. *)
From Verif Require Import Base SpecBytes LemBase ModelWord LemWord ModelBits LemBits ModelFloat ModelTrans
  ModelCrc ModelVM SpecVM LemAct LemSafe LemRun Samples.
Ltac Zify.zify_post_hook ::= Z.div_mod_to_equations.

Section S.
  Context {H : Type} (host : H -> request -> H * reply) (lm : libm) (bc : list N).
  Hypothesis (BL : lenN bc < 2 ^ 62) (WB : wf_bytes bc).

  Lemma in_bc s : ip s < lenN bc -> In (opcode_at bc s) bc.
  Proof using. clear BL.
    intros. unfold opcode_at, nthN. apply nth_In. unfold lenN in *. lia.
  Qed.

  Notation safe_at := (safe_at bc).

  Lemma during_haz s h : boff s < 8 -> Inv False s -> during host lm bc s h safe_at ->
    during host lm bc s h (fun s => ~ hazardous bc s).
  Proof using BL WB.
    intros B I HD s1 h1 R HI HZ. destruct (HD s1 h1 R HI) as (A1 & A2 & A3).
    assert (M : mono False False s s1) by (eapply (reaches_mono host lm bc False False False); eauto; tauto).
    pose proof (m_inv _ _ _ _ M) as I1. destruct HZ as [Z|[Z|Z]].
    - apply A1. now apply haz_pad_spec.
    - apply A2. apply haz_enum_spec; auto. apply I1.
    - apply A3. now apply haz_emit_spec.
  Qed.
  Lemma during_haz_init m data h : wf_bytes data -> during host lm bc (init m data) h safe_at ->
    during host lm bc (init m data) h (fun s => ~ hazardous bc s).
  Proof using BL WB. intros. apply during_haz; auto. - cbn. lia. - now apply init_Inv. Qed.

  Variables (m : mode) (data : list N) (h : H).
  Hypothesis WD : wf_bytes data.

  Lemma packet_containment fuel o h' t : during host lm bc (init m data) h safe_at ->
    run host lm bc fuel (init m data) h = (o, h', t) ->
    o <> Crash UData /\
    forall rq r p l, In (rq, r) t -> rq_pl rq = PBuf p l -> p + lenN l <= lenN data.
  Proof using BL WB WD.
    intros HD R. pose proof (during_haz_init m data h WD HD) as HZ. split.
    - intros ->. eapply (crash_may host lm bc True False False) in R; eauto; try tauto; [|now apply init_Inv].
      destruct R as (s1 & h1 & _ & _ & (_ & X & _)). now apply X.
    - intros. eapply (events_lent host lm bc True False False) in R; eauto; try tauto. now apply init_Inv.
  Qed.

  Lemma stacks_bounded s' h' : passes host lm bc (init m data) h s' h' ->
    lenN (stk s') <= 8 /\ lenN (loops s') <= 8.
  Proof using BL WB WD.
    intros P. assert (M : mono False False (init m data) s').
    { eapply (passes_mono host lm bc False False False); eauto; try tauto. now apply init_Inv. }
    split; apply (m_inv _ _ _ _ M).
  Qed.
  Lemma no_stack_overrun fuel o h' t : run host lm bc fuel (init m data) h = (o, h', t) -> o <> Crash UStack.
  Proof using BL WB WD.
    intros R ->. eapply (crash_may host lm bc False False False) in R; eauto; try tauto; [|now apply init_Inv].
    destruct R as (s1 & h1 & _ & _ & (X & _)). congruence.
  Qed.

  Lemma decode_keeps_packet s' h' : m = Dec -> host_reads_only host ->
    during host lm bc (init m data) h (fun s => opcode_at bc s <> 0x41) ->
    passes host lm bc (init m data) h s' h' -> buf s' = data.
  Proof using BL WB WD.
    intros -> HR HO P. change (buf s' = buf (init Dec data)).
    eapply (passes_dec host lm bc False False True); eauto; try tauto. now apply init_Inv.
  Qed.

  Lemma encode_beyond_end s' h' : host_refuses_cleanly host ->
    passes host lm bc (init m data) h s' h' ->
    lenN (buf s') = lenN data /\ forall i, position s' <= 8 * i -> nthN (buf s') i = nthN data i.
  Proof using BL WB WD.
    intros HR P. assert (M : mono False True (init m data) s').
    { eapply (passes_mono host lm bc False True False); eauto; try tauto. now apply init_Inv. }
    split; [apply (m_len _ _ _ _ M)|]. intros i Hi. apply (m_beyond _ _ _ _ M); auto.
  Qed.
  Lemma encode_bytes_final s1 h1 s2 h2 : host_refuses_cleanly host ->
    reaches host lm bc (init m data) h s1 h1 -> passes host lm bc s1 h1 s2 h2 ->
    forall i, i < cur s1 -> nthN (buf s2) i = nthN (buf s1) i.
  Proof using BL WB WD.
    intros HR R P i Hi.
    assert (M : mono False True (init m data) s1).
    { eapply (reaches_mono host lm bc False True False); eauto; try tauto. now apply init_Inv. }
    assert (M2 : mono False True s1 s2).
    { eapply (passes_mono host lm bc False True False); eauto; try tauto. apply (m_inv _ _ _ _ M). }
    apply (m_done _ _ _ _ M2); auto.
  Qed.
  Lemma encode_bits_final s1 h1 s2 h2 : host_refuses_cleanly host ->
    reaches host lm bc (init m data) h s1 h1 -> passes host lm bc s1 h1 s2 h2 ->
    during host lm bc s1 h1 (fun s => ~ emits_mid_byte bc s /\ ~ switches_mid_byte bc s) ->
    forall j, j < position s1 -> sbit (en s1) (buf s2) j = sbit (en s1) (buf s1) j.
  Proof using BL WB WD.
    intros HR R P HD.
    assert (M : mono False True (init m data) s1).
    { eapply (reaches_mono host lm bc False True False); eauto; try tauto. now apply init_Inv. }
    assert (X : settled s1 s2).
    { eapply (passes_settled host lm bc False True False); eauto; try tauto. apply (m_inv _ _ _ _ M). }
    apply X.
  Qed.

  Lemma bytecode_containment fuel o h' t : during host lm bc (init m data) h (fun s => ~ huge_table bc s) ->
    run host lm bc fuel (init m data) h = (o, h', t) -> o <> Crash UIl.
  Proof using BL WB WD.
    intros HD R ->. eapply (crash_may host lm bc False False False) in R; eauto; try tauto; [|now apply init_Inv].
    destruct R as (s1 & h1 & RR & HI & (_ & _ & X)). apply (HD s1 h1 RR HI). apply haz_table_spec; auto.
  Qed.

  Lemma position_monotone s1 h1 s2 h2 :
    reaches host lm bc (init m data) h s1 h1 -> passes host lm bc s1 h1 s2 h2 ->
    position s1 <= position s2 /\ boff s2 < 8.
  Proof using BL WB WD.
    intros R P.
    assert (M : mono False False (init m data) s1).
    { eapply (reaches_mono host lm bc False False False); eauto; try tauto. now apply init_Inv. }
    assert (M2 : mono False False s1 s2).
    { eapply (passes_mono host lm bc False False False); eauto; try tauto. apply (m_inv _ _ _ _ M). }
    split; [apply (m_pos _ _ _ _ M2)|apply (m_inv _ _ _ _ M2)].
  Qed.
  Lemma position_inside s' h' : during host lm bc (init m data) h safe_at ->
    passes host lm bc (init m data) h s' h' -> position s' <= 8 * lenN data.
  Proof using BL WB WD.
    intros HD P. assert (M : mono True False (init m data) s').
    { eapply (passes_mono host lm bc True False False); eauto; try tauto; [now apply init_Inv|].
      intros _. now apply during_haz_init. }
    pose proof (i_pos _ _ (m_inv _ _ _ _ M) Logic.I) as X. rewrite (m_len _ _ _ _ M) in X. exact X.
  Qed.

  (** No byte of the bytecode is one of the opcodes in question *)
  Lemma safe_bytes s0 : Forall (fun b => b <> 0x23 /\ b <> 0x4B /\ b <> 0x65) bc ->
    during host lm bc s0 h safe_at.
  Proof using. clear BL.
    intros HF s1 h1 _ HI. rewrite Forall_forall in HF. specialize (HF _ (in_bc s1 HI)).
    unfold safe_at, pads_past_end, enum_before_start, emits_mid_byte. tauto.
  Qed.
End S.

(** ** Error codes of the stack limits *)
Definition pops (c : opclass) : N :=
  match c with
  | CBin _ => 2
  | CJumpIfNot | CPop | CDup | CEmit | CStore | CUn _ => 1
  | _ => 0
  end.
Lemma pops_all : forallb (fun op => pops (classify op) =? operands_needed op) (map N.of_nat (seq 0 256)) = true.
Proof. vm_compute. reflexivity. Qed.
Lemma pops_op op : op < 256 -> pops (classify op) = operands_needed op.
Proof.
  intros. assert (A := pops_all). rewrite forallb_forall in A. apply N.eqb_eq. apply A.
  apply in_map_iff. exists (N.to_nat op). split; [lia|]. apply in_seq. lia.
Qed.

Lemma step_fetch lm bc s : ip s < lenN bc ->
  step lm bc s = exec_op lm bc (opcode_at bc s) (align (opcode_at bc s) (set_ip s (ip s + 1))).
Proof.
  intros HI. unfold step. rewrite mem_eq. destruct (N.ltb_spec (ip s) (lenN bc)); [reflexivity|lia].
Qed.

Lemma underflow_reported {H} (host : H -> request -> H * reply) lm bc s h :
  wf_bytes bc -> ip s < lenN bc -> lenN (stk s) < operands_needed (opcode_at bc s) ->
  exists s', interp host (step lm bc s) h = (SHalt EStackUnderflow s', h, []).
Proof.
  intros W HI HS. rewrite step_fetch by auto. set (op := opcode_at bc s) in *.
  assert (OP : op < 256) by now apply wf_nthN. rewrite <- pops_op in HS by auto.
  set (s0 := align op (set_ip s (ip s + 1))). assert (ES : stk s0 = stk s).
  { unfold s0, align. destruct (_ && _); reflexivity. }
  unfold exec_op. destruct (classify op) eqn:EC; cbn [pops] in HS; try lia.
  - unfold jump_if_not. rewrite fetch_ok. cbn [lift]. destruct (fetchv W4 bc (ip s0)) as [v p]. unfold pop. cbn [stk set_ip].
    rewrite ES. destruct (stk s); [cbn; eauto|]. unfold lenN in HS; cbn in HS; lia.
  - unfold store_ctx. rewrite fetch_ok. cbn [lift]. destruct (fetchv W2 bc (ip s0)) as [v p]. unfold pop. cbn [stk set_ip].
    rewrite ES. destruct (stk s); [cbn; eauto|]. unfold lenN in HS; cbn in HS; lia.
  - unfold pop. rewrite ES. destruct (stk s); [cbn; eauto|]. unfold lenN in HS; cbn in HS; lia.
  - unfold dup_op. rewrite ES. destruct (stk s); [cbn; eauto|]. unfold lenN in HS; cbn in HS; lia.
  - unfold emit. rewrite fetch_ok. cbn [lift]. destruct (fetchv W1 bc (ip s0)) as [v p]. unfold pop. cbn [stk set_ip].
    rewrite ES. destruct (stk s); [cbn; eauto|]. unfold lenN in HS; cbn in HS; lia.
  - unfold bin_op, pop. rewrite ES. destruct (stk s) as [|a [|b r]]; cbn [stk set_stk interp]; eauto.
    unfold lenN in HS; cbn in HS; lia.
  - unfold un_op, pop. rewrite ES. destruct (stk s); [cbn; eauto|]. unfold lenN in HS; cbn in HS; lia.
Qed.

Lemma overflow_reported {H} (host : H -> request -> H * reply) lm bc s h :
  ip s < lenN bc -> lenN (stk s) = 8 ->
  (opcode_at bc s = 0x61 \/ opcode_at bc s = 0x64 \/
   (opcode_at bc s = 0x60 /\ forall rq, r_ok (snd (host h rq)) = true)) ->
  exists s' h' t, interp host (step lm bc s) h = (SHalt EStackOverflow s', h', t).
Proof.
  intros HI HS HO. rewrite step_fetch by auto. destruct HO as [E|[E|[E HK]]]; rewrite E; unfold align, exec_op; cbn [aligns classify andb orb].
  - change (aligns 0x61) with false. cbn [andb]. rewrite fetch_ok. cbn [lift]. destruct (fetchv _ _ _) as [v p].
    unfold push, max_expr_stack. cbn [stk set_ip]. rewrite HS. cbn. eauto.
  - change (aligns 0x64) with false. cbn [andb]. unfold dup_op. cbn [stk set_ip].
    destruct (stk s) eqn:ES; [discriminate HS|]. unfold push, max_expr_stack. cbn [stk set_ip]. rewrite ES, HS. cbn. eauto.
  - change (aligns 0x60) with false. cbn [andb]. unfold load_ctx. rewrite fetch_ok. cbn [lift]. destruct (fetchv _ _ _) as [v p].
    unfold call. cbn [interp]. match goal with |- context [host h ?rq] => specialize (HK rq); destruct (host h rq) as [h1 r] end.
    cbn [snd] in HK. rewrite HK. unfold push, max_expr_stack. cbn [stk set_ip]. rewrite HS. cbn. eauto.
Qed.
