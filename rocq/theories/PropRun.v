(** C05, C07: how runs end. *)
From Verif Require Import Base SpecBytes LemBase ModelWord ModelFloat ModelTrans ModelVM SpecVM Samples LemAct LemSafe LemRun LemArr LemStop LemTerm.

(** ** C05 Termination *)

(** Full property: every run of a bytecode image without backward jumps ends.  That is false of the
    code: a read-to-end loop whose body consumes nothing never ends (below).  Proved: every run in
    which jump and switch instructions only go forward and every pass of a read-to-end loop moves the
    position ends, after at most (8 * packet length + 1) * (code length + 2^32)^17 instructions.
    Counted loops are not restricted. *)
Theorem C05_termination_partial :
  forall (H : Type) (host : H -> request -> H * reply) lm bc m data (h : H) fuel,
  wf_bytes bc -> lenN bc < 2 ^ 62 -> wf_bytes data ->
  jumps_forward host lm bc (init m data) h ->
  passes_consume host lm bc (init m data) h ->
  (8 * lenN data + 1) * (lenN bc + 2 ^ 32) ^ 17 <= N.of_nat fuel ->
  fst (fst (run host lm bc fuel (init m data) h)) <> OutOfFuel.
Proof. intros. now apply terminates. Qed.
Print Assumptions C05_termination_partial.

(** A read-to-end array of pairs of a counted array and a byte, followed by a conditional jump:
    the hypotheses hold and the run does loop and jump. *)
Definition prog5 : list N :=
  [0x3A; 1; 0; 0x35; 2; 0; 0x11; 3; 0; 0x38; 0x10; 4; 0; 0x38;
   0x61; 0; 0; 0; 0; 0; 0; 0; 0; 0x50; 1; 0; 0; 0; 0x04; 0x10; 5; 0].
Definition data5 : list N := [2; 1; 0; 2; 0; 9; 0; 8; 1; 5; 0; 7].
Definition later (bc : list N) (s s' : st) : bool :=
  negb ((opcode_at bc s =? 0x38) && (opcode_at bc s' =? 0x38)) || (position s <? position s').
Example C05_nonvacuous :
  jumps_forward quiet lm0 prog5 (init Dec data5) tt /\ passes_consume quiet lm0 prog5 (init Dec data5) tt /\
  (exists s t, run quiet lm0 prog5 100 (init Dec data5) tt = (Done EOob s, tt, t) /\ cur s = 12 /\ ip s = 32) /\
  (exists s h, reaches quiet lm0 prog5 (init Dec data5) tt s h /\ repeats prog5 s).
Proof.
  assert (HS : exists l, states quiet lm0 prog5 100 (init Dec data5) tt = Some l) by (eexists; vm_compute; reflexivity).
  destruct HS as [l HS].
  split; [|split; [|split]].
  - intros s1 h1 s2 h2 t R HI HO X.
    assert (HC : checked quiet lm0 prog5 100 (init Dec data5) tt (fun s => match interp quiet (step lm0 prog5 s) tt with
      | (SCont s', _, _) => (ip s <? ip s') || (opcode_at prog5 s =? 0x38) | _ => true end) = true) by (vm_compute; reflexivity).
    pose proof (checked_during _ _ _ _ _ _ _ _ HC (fun s E => E) s1 h1 R HI) as E. cbv beta in E.
    destruct h1. rewrite X in E. lia.
  - intros s1 h1 s2 h2 t s3 h3 R R1 X R' R3 _.
    assert (HO : ordered (later prog5) l = true).
    { assert (HO : match states quiet lm0 prog5 100 (init Dec data5) tt with Some l => ordered (later prog5) l | None => false end = true)
        by (vm_compute; reflexivity). rewrite HS in HO. exact HO. }
    pose proof (states_ordered _ _ _ _ _ _ _ _ _ _ _ _ _ _ _ HS HO R (proj1 R1) X R') as E.
    destruct R1 as (_ & R1 & _). destruct R3 as (_ & R3 & _). unfold later in E. rewrite R1, R3 in E.
    cbn [N.eqb Pos.eqb andb negb orb] in E. lia.
  - eexists. eexists. split; [vm_compute; reflexivity|]. split; reflexivity.
  - set (p s := (ip s =? 13) && (byte_pos s =? 6)).
    assert (HX : match states quiet lm0 prog5 100 (init Dec data5) tt with
      | Some l => match find p l with Some s => match loops s with [(3, 0xFFFFFFFF)] => lenN (buf s) =? 12 | _ => false end | None => false end
      | None => false end = true) by (vm_compute; reflexivity).
    rewrite HS in HX. destruct (find p l) as [s|] eqn:EF; [|discriminate].
    apply find_some in EF. destruct EF as [EF EP]. destruct (states_in _ _ _ _ _ _ _ _ HS EF) as [h R].
    exists s, h. split; [exact R|]. unfold p in EP.
    assert (EI : ip s = 13) by lia. assert (EB : byte_pos s = 6) by lia.
    assert (EL : lenN (buf s) = 12 /\ exists b rest, loops s = (b, 0xFFFFFFFF) :: rest).
    { clear - HX. destruct (loops s) as [|[b n] rest]; [discriminate|].
      destruct (N.eqb_spec n 0xFFFFFFFF) as [->|HN].
      - split; [|eauto]. repeat match type of HX with match ?x with _ => _ end = true => destruct x; try discriminate end; lia.
      - exfalso. repeat match type of HX with match ?x with _ => _ end = true => destruct x; try discriminate end. congruence. }
    destruct EL as [EL1 EL2]. split; [rewrite EI; reflexivity|]. split; [unfold opcode_at; rewrite EI; reflexivity|].
    split; [lia|exact EL2].
Qed.

(** A read-to-end array whose element has no fields, on a one-byte packet: no number of steps is enough.
    There is no jump instruction in it. *)
Theorem C05_refuted_empty_element : exists bc data, Forall (fun b => ~ 0x50 <= b <= 0x53) bc /\
  forall fuel, fst (fst (run quiet lm0 bc fuel (init Dec data) tt)) = OutOfFuel.
Proof.
  exists [0x3A; 1; 0; 0x38], [7]. split; [repeat constructor; lia|].
  assert (A : forall fuel, fst (fst (run quiet lm0 [0x3A; 1; 0; 0x38] fuel
    (mkst Dec [7] 3 0 0 LE TNone false [(3, 0xFFFFFFFF)] []) tt)) = OutOfFuel).
  { induction fuel; [reflexivity|]. cbn [run]. change (lenN [58; 1; 0; 56] <=? _) with false. cbv iota.
    match goal with |- context [interp quiet ?a tt] => change (interp quiet a tt) with
      (@SCont (mkst Dec [7] 3 0 0 LE TNone false [(3, 0xFFFFFFFF)] []), tt, @nil event) end. cbv beta iota.
    destruct (run quiet lm0 _ fuel _ tt) as [[o h] t]. exact IHfuel. }
  intros [|fuel]; [reflexivity|]. cbn [run]. change (lenN [58; 1; 0; 56] <=? _) with false. cbv iota.
  match goal with |- context [interp quiet ?a tt] => change (interp quiet a tt) with
    (SCont (mkst Dec [7] 3 0 0 LE TNone false [(3, 0xFFFFFFFF)] []), tt, @nil event) end. cbv beta iota.
  specialize (A fuel). destruct (run quiet lm0 _ fuel _ tt) as [[o h] t]. exact A.
Qed.
Print Assumptions C05_refuted_empty_element.

(** ** C07 A refusal ends the run *)

(** If the host refuses any call of a run, that call is the last one and cnd_execute returns
    CND_ERR_CALLBACK - unless the call asked for an optional string while encoding, or offered to fill a byte
    array in one call; [carries_on] says what happens then. *)
Theorem C07_refusal_ends_run :
  forall (H : Type) (host : H -> request -> H * reply) lm bc m data (h : H) fuel o h' t1 rq r t2,
  wf_bytes bc -> lenN bc < 2 ^ 62 -> wf_bytes data ->
  run host lm bc fuel (init m data) h = (o, h', t1 ++ (rq, r) :: t2) -> r_ok r = false ->
  (t2 = [] /\ exists s', o = Done ECallback s') \/
  exists s1 h1 x h2 u, reaches host lm bc (init m data) h s1 h1 /\ ip s1 < lenN bc /\
    interp host (step lm bc s1) h1 = (x, h2, u ++ [(rq, r)]) /\ carries_on bc s1 rq x.
Proof.
  intros H host lm bc m data h fuel o h' t1 rq r t2 WB BL WD X HR.
  refine (refusal host lm bc sane _ _ fuel _ _ _ _ _ _ _ _ _ X HR).
  - intros s s' h1 h2 t HS HI HX. now destruct (step_sane host lm bc BL WB _ _ _ _ _ HS HI HX).
  - intros s (A & B & C & D). auto.
  - repeat split; cbn; auto; lia.
Qed.
Print Assumptions C07_refusal_ends_run.
(** A refused field ends the run; a refused optional string does not; a refused bulk offer is followed by
    the elements. *)
Example C07_nonvacuous :
  (exists s t, run script lm0 prog1 100 (init Enc (repeat 0 20)) [say 5; refuse] = (Done ECallback s, [], t) /\ length t = 2%nat) /\
  (exists s t, run script lm0 [0x4A; 0x31; 1; 0; 0x10; 2; 0] 100 (init Enc [0; 0]) [refuse; say 7] = (Done EOk s, [], t)
    /\ buf s = [7; 0] /\ length t = 2%nat) /\
  (exists s t, run script lm0 [0x34; 1; 0; 2; 0; 0; 0; 0x10; 2; 0; 0x38] 100 (init Enc [0; 0]) [nod; refuse; say 7; say 8] = (Done EOk s, [], t)
    /\ buf s = [7; 8] /\ length t = 5%nat).
Proof.
  split; [|split].
  - eexists. eexists. split; [vm_compute; reflexivity|]. vm_compute; reflexivity.
  - eexists. eexists. split; [vm_compute; reflexivity|]. split; [reflexivity|reflexivity].
  - eexists. eexists. split; [vm_compute; reflexivity|]. split; [reflexivity|reflexivity].
Qed.
