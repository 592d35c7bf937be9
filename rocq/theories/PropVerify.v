(** C30, C31: the verifier and the programs it accepts. *)
From Verif Require Import Base SpecBytes ModelWord ModelFloat ModelTrans ModelVM SpecVM Samples
  ModelVerify SpecVerify LemVerify LemPlain.

(** ** C30 The verifier *)

(** It returns for every byte string, having read only inside it ([verify] has [VCrash] for a read outside
    and [VOutOfFuel] for not having returned yet), with one of four results. *)
Theorem C30_total : forall bc fuel,
  wf_bytes bc -> lenN bc < 2 ^ 32 - 32 -> lenN bc < N.of_nat fuel ->
  exists e, verify fuel bc = Verdict e /\ In e [EOk; EOob; EInvalidOp; EValidation].
Proof.
  intros bc fuel W L F. destruct (verify_spec bc W L fuel F) as (e & E & S). exists e. split; [exact E|].
  destruct S as [[-> _]|(q & _ & _ & _ & [[-> _]|[[-> _]|[-> _]]])]; cbn; auto.
Qed.
Print Assumptions C30_total.

(** It accepts exactly the sequences of whole known instructions with targets inside the code. *)
Theorem C30_accepts_good_programs : forall bc fuel,
  wf_bytes bc -> lenN bc < 2 ^ 32 - 32 -> lenN bc < N.of_nat fuel ->
  (verify fuel bc = Verdict EOk <-> good_program bc).
Proof. intros bc fuel W L F. exact (verify_accepts bc W L fuel F). Qed.
Print Assumptions C30_accepts_good_programs.

(** A rejection names the kind of fault of the first unacceptable instruction. *)
Theorem C30_reports_first_fault : forall bc fuel e,
  wf_bytes bc -> lenN bc < 2 ^ 32 - 32 -> lenN bc < N.of_nat fuel ->
  verify fuel bc = Verdict e -> e <> EOk ->
  exists q, walks bc 0 q /\ q < lenN bc /\ (forall n, ~ good_instr bc q n) /\
    ((e = EInvalidOp /\ size_of (nthN bc q) = None) \/
     (e = EValidation /\ empty_table bc q) \/
     (e = EOob /\ size_of (nthN bc q) <> None /\ ~ empty_table bc q)).
Proof.
  intros bc fuel e W L F E NE. destruct (verify_spec bc W L fuel F) as (e' & E' & S). rewrite E in E'. injection E' as <-.
  destruct S as [[-> _]|S]; [contradiction|exact S].
Qed.
Print Assumptions C30_reports_first_fault.

(** Accepted: byte order, an array of bytes, a conditional jump, a switch with one case and the table behind it. *)
Definition prog30 : list N :=
  [0x02; 0x35; 1; 0; 0x10; 2; 0; 0x38; 0x61; 1; 0; 0; 0; 0; 0; 0; 0; 0x50; 0; 0; 0; 0;
   0x51; 3; 0; 5; 0; 0; 0;  0x52; 18; 0; 0; 0;
   1; 0; 0; 0; 0; 0; 0; 0; 0; 0; 0; 0; 0; 0; 0; 0; 0; 0; 0x04].
Example C30_nonvacuous :
  verify 100 prog30 = Verdict EOk /\
  verify 100 [0x10; 0] = Verdict EOob /\ verify 100 [0x52; 0; 0; 0; 0] = Verdict EOob /\
  verify 100 [0x00; 0x4B; 0x10; 0; 0] = Verdict EInvalidOp /\
  verify 100 ([0x53; 0; 0; 0; 0; 0; 0] ++ [2; 0; 0; 0; 0; 0; 0; 0; 1; 0; 0; 0; 0; 0; 0; 0; 0; 0; 0; 0]) = Verdict EValidation.
Proof. vm_compute. repeat split. Qed.

(** ** C31 Accepted programs *)

(** Full property: a run of an accepted program never ends with an error caused by the bytecode (unknown
    instruction, jump outside the code) and never reads outside the bytecode.  That is false of the code, in
    several ways (below): the verifier's sizes of seventeen instructions differ from the interpreter's, it
    checks neither that targets are instructions nor the nesting of loops, its table positions wrap at 2^32 and
    it takes a dense table for all 2^64 values for an empty one. *)

(** Proved for every accepted program: a jump or switch instruction that the verifier has looked at leads to one
    of its targets, all of them inside the code; when it stops, it is because the host refused or the stack is empty.
    Excluded: tables before their switch (position wrapped) and dense tables for all 2^64 values. *)
Theorem C31_checked_jumps_partial :
  forall (H : Type) (host : H -> request -> H * reply) lm bc fuel,
  wf_bytes bc -> lenN bc < 2 ^ 32 - 32 -> verify fuel bc = Verdict EOk -> lenN bc < N.of_nat fuel ->
  forall s h x h' t,
  walks bc 0 (ip s) -> ip s < lenN bc -> 0x50 <= opcode_at bc s <= 0x53 -> table_ahead bc (ip s) ->
  interp host (step lm bc s) h = (x, h', t) ->
  (exists s', x = SCont s' /\ leads bc (ip s) (ip s') /\ ip s' <= lenN bc) \/
  (exists e s', x = SHalt e s' /\ (e = ECallback \/ e = EStackUnderflow)).
Proof.
  intros H host lm bc fuel W L V F s h x h' t A B C D X. apply verify_accepts in V; auto.
  pose proof (control_step host lm bc W L V s h x h' t A B C D X) as Y. destruct x as [s'|e s'|u]; [left|right|contradiction].
  - exists s'. split; [reflexivity|]. destruct Y as (Y1 & Y2 & _). auto.
  - exists e, s'. auto.
Qed.
Print Assumptions C31_checked_jumps_partial.

(** Proved for every accepted program that is [plain] (only instructions whose size both sides agree on, targets
    that are instructions, tables ahead of their switch, no operand byte equal to ARR_END): in every run, with every
    packet and host, every instruction executed is one the verifier has looked at, complete and known; a run stops
    with CND_ERR_INVALID_OP only at an ARR_END outside every loop; no jump or switch stops the run with CND_ERR_OOB;
    the bytecode is never read outside. *)
Theorem C31_plain_programs_partial :
  forall (H : Type) (host : H -> request -> H * reply) lm bc fuel m data h,
  wf_bytes bc -> lenN bc < 2 ^ 32 - 32 -> verify fuel bc = Verdict EOk -> lenN bc < N.of_nat fuel ->
  plain bc -> wf_bytes data ->
  (forall s h', reaches host lm bc (init m data) h s h' -> ip s < lenN bc ->
     walks bc 0 (ip s) /\ (exists n, good_instr bc (ip s) n) /\
     forall e s' h2 t, interp host (step lm bc s) h' = (SHalt e s', h2, t) ->
       (e = EInvalidOp -> opcode_at bc s = 0x38 /\ loops s = []) /\
       (0x50 <= opcode_at bc s <= 0x53 -> e <> EOob)) /\
  (forall f o h' t, run host lm bc f (init m data) h = (o, h', t) -> o <> Crash UIl).
Proof.
  intros H host lm bc fuel m data h W L V F PL WD. apply verify_accepts in V; auto. split.
  - intros s h' R HI. pose proof (plain_on_code host lm bc W L V PL _ _ _ _ _ R) as OC. split; [apply OC|]. split.
    + destruct (start_good bc L V (ip s) (proj1 OC) HI) as (n & G & _). now exists n.
    + intros e s' h2 t X. exact (plain_step host lm bc W L V PL s h' _ _ _ OC HI X).
  - intros f o h' t. now apply plain_containment.
Qed.
Print Assumptions C31_plain_programs_partial.

Example C31_nonvacuous :
  verify 100 prog30 = Verdict EOk /\ plain prog30 /\
  (exists s t, run quiet lm0 prog30 100 (init Dec [2; 7; 8]) tt = (Done EOk s, tt, t) /\ cur s = 3).
Proof.
  assert (V : verify 100 prog30 = Verdict EOk) by (vm_compute; reflexivity).
  split; [exact V|]. split.
  - apply plainb_plain; [vm_compute; reflexivity| |vm_compute; reflexivity].
    apply (verify_accepts prog30) with (fuel := 100%nat); [|vm_compute; reflexivity|vm_compute; reflexivity|exact V].
    unfold prog30. repeat constructor.
  - eexists. eexists. vm_compute. split; reflexivity.
Qed.

(** ARR_END outside a loop *)
Theorem C31_refuted_unopened_loop : exists bc, verify 100 bc = Verdict EOk /\
  exists s, fst (fst (run quiet lm0 bc 100 (init Dec []) tt)) = Done EInvalidOp s.
Proof. exists [0x38]. split; [reflexivity|]. eexists. vm_compute. reflexivity. Qed.
Print Assumptions C31_refuted_unopened_loop.

(** The verifier takes the byte after ENTER_STRUCT for an instruction, the interpreter takes two for a key; what the
    verifier took for a number is a jump out of the code. *)
Theorem C31_refuted_sizes_differ : exists bc, verify 100 bc = Verdict EOk /\
  exists s, fst (fst (run quiet lm0 bc 100 (init Dec []) tt)) = Done EOob s.
Proof. exists [0x03; 0x61; 0; 0x52; 0xFF; 0xFF; 0xFF; 0x7F; 0; 0; 0]. split; [reflexivity|]. eexists. vm_compute. reflexivity. Qed.
Print Assumptions C31_refuted_sizes_differ.

(** A table before its switch: the verifier's position wraps at 2^32, the interpreter's does not. *)
Theorem C31_refuted_table_before_switch : exists bc, verify 100 bc = Verdict EOk /\
  exists s, fst (fst (run quiet lm0 bc 100 (init Dec []) tt)) = Done EOob s.
Proof. exists [0; 0; 0; 0; 0; 0; 0x51; 0; 0; 0xF3; 0xFF; 0xFF; 0xFF; 0]. split; [reflexivity|]. eexists. vm_compute. reflexivity. Qed.
Print Assumptions C31_refuted_table_before_switch.

(** A dense table for all values (to the verifier, the operands of a RANGE_CHECK): the interpreter reads outside
    the bytecode. *)
Definition prog_all : list N :=
  [0x53; 0; 0; 4; 0; 0; 0; 0x42; 0; 0; 0] ++
  [0; 0; 0; 0; 0; 0; 0; 0] ++ [255; 255; 255; 255; 255; 255; 255; 255] ++ [0; 0; 0; 0].
Theorem C31_refuted_read_outside : exists bc v, verify 100 bc = Verdict EOk /\
  fst (fst (run (always v) lm0 bc 100 (init Dec []) tt)) = Crash UIl.
Proof. exists prog_all, ((2 ^ 64 - 32) / 4). split; vm_compute; reflexivity. Qed.
Print Assumptions C31_refuted_read_outside.

(** Nor is every accepted program's run finite. *)
Theorem C31_refuted_endless : exists bc, verify 100 bc = Verdict EOk /\
  forall fuel, fst (fst (run quiet lm0 bc fuel (init Dec []) tt)) = OutOfFuel.
Proof.
  exists [0x52; 0xFB; 0xFF; 0xFF; 0xFF]. split; [reflexivity|].
  induction fuel; [reflexivity|]. cbn [run]. change (lenN [82; 251; 255; 255; 255] <=? _) with false. cbv iota.
  match goal with |- context [interp quiet ?a tt] => change (interp quiet a tt) with (SCont (init Dec []), tt, @nil event) end. cbv beta iota.
  destruct (run quiet lm0 _ fuel _ tt) as [[o h] t]. exact IHfuel.
Qed.
Print Assumptions C31_refuted_endless.
