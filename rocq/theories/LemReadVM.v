(** Decoding steps that fail, and the flag for optional fields. *)
From Coq Require Import ZifyBool ZifyNat ZifyN.
From Verif Require Import Base SpecBytes ModelWord ModelFloat ModelTrans ModelVM SpecVM LemBase LemWord LemAct LemInstr LemField LemCheck LemStr LemArr LemFlow LemImage LemPlain SpecParse SpecNames SpecPacket SpecFlow
  LemSend SpecMessage LemMessage SpecNest LemNest LemNestRun.
Ltac Zify.zify_post_hook ::= Z.div_mod_to_equations.

(** ** Only one instruction makes fields optional *)
Section Opt.
  Context {H : Type} (host : H -> request -> H * reply) (lm : libm) (bc : list N).
  Ltac rs := unfold set_opt, set_cur, set_buf, set_boff, set_tr, set_stk, set_en, set_ip, set_loops, dlen in *; cbn [opt] in *.
  Ltac lv1 :=
    match goal with
    | |- leaf _ _ (lift _ _) => apply leaf_lift; intros ? ?
    | |- leaf _ _ (call _ _ _ _ _ _) => apply leaf_call; [exact Logic.I|intros ?]
    | |- leaf _ _ (Ask _ _) => intros ?
    | |- leaf _ _ (if ?x then _ else _) => destruct x eqn:?
    | |- leaf _ _ (match ?x with _ => _ end) => destruct x eqn:?
    | |- leaf _ _ (let _ := _ in _) => cbv zeta
    | |- leaf _ _ (Halt _ _) => exact Logic.I
    | |- leaf _ _ (Undef _) => exact Logic.I
    | |- leaf _ _ (Cont _) => cbn [leaf]; rs; first [reflexivity|assumption]
    end.
  Ltac lvs := repeat (cbv beta; lv1).
  Lemma exec_opt op s : op < 256 -> opt s = false -> op <> 0x4A -> leaf (fun s => opt s = false) (fun _ => True) (exec_op lm bc op s).
  Proof.
    intros OB O NE. unfold exec_op. destruct (classify op) eqn:C; try (lvs; fail).
    all: try (unfold const_write, const_check, enum_check, range_check, crc_op, scale_lin, trans_poly, trans_spline, trans_int, io_int, io_float, io_scalar, io_bool, io_bit_u, io_bit_i, io_bit_bool,
      align_pad, align_fill, put_bits, get_bits, str_null, str_pre, arr_pre, arr_fixed, arr_eof, arr_dynamic, arr_end, enter_array, try_bulk, loop_push, arr_push, raw_bytes,
      switch_op, switch_table, jump_if_not, jump_op, jump_to, load_ctx, store_ctx, emit, bin_op, un_op, dup_op, pop, push; lvs; fail).
    - exfalso. apply NE. assert (A : forallb (fun op => match classify op with COptional => op =? 0x4A | _ => true end) (map N.of_nat (seq 0 256)) = true) by (vm_compute; reflexivity).
      rewrite forallb_forall in A. specialize (A op). rewrite C in A. apply N.eqb_eq. apply A. apply in_map_iff. exists (N.to_nat op). split; [lia|]. apply in_seq. lia.
    - unfold arr_end. destruct (loops s) as [|(a, c) l]; [exact Logic.I|]. destruct (c =? eof_mark); cbv beta iota zeta; lvs.
    - unfold ModelVM.bin_op, pop. destruct (stk s) as [|y l]; [exact Logic.I|]. cbn [stk set_stk]. destruct l as [|x l]; [exact Logic.I|]. destruct (bin_eval lm o x y); unfold push; lvs.
  Qed.
  Lemma step_opt s h s1 h1 t : wf_bytes bc -> opt s = false -> opcode_at bc s <> 0x4A -> interp host (step lm bc s) h = (SCont s1, h1, t) -> opt s1 = false.
  Proof.
    intros WB O NE X. refine (interp_leaf host (fun s => opt s = false) (fun _ => True) _ _ h _ _ _ X). unfold step. apply leaf_lift. intros op M. rewrite mem_eq in M.
    destruct (N.ltb_spec (ip s) (lenN bc)); [|discriminate]. injection M as <-. apply exec_opt.
    - now apply wf_nthN.
    - unfold align. destruct (aligns _ && _); exact O.
    - exact NE.
  Qed.
  Lemma steps_opt n s h s1 h1 t : wf_bytes bc -> steps host lm bc n s h s1 h1 t -> opt s = false -> opt s1 = false.
  Proof. intros WB A. induction A as [s h|n s h s1 h1 t1 s2 h2 t2 IL O E A IH]; [auto|]. intros F. apply IH. eapply step_opt; eauto. apply O. Qed.
End Opt.

(** ** Failing *)
Section Fail.
  Context {H : Type} (host : H -> request -> H * reply) (lm : libm) (bc : list N) (WB : wf_bytes bc).
  Notation steps := (steps host lm bc).
  (** The run ends in the error [e] *)
  Definition fails (s : st) (h : H) (e : err) : Prop :=
    exists n s' h' t, forall fuel, (n <= fuel)%nat -> run host lm bc fuel s h = (Done e s', h', t).
  Lemma fails_now s h e s' h' t : ip s < lenN bc -> interp host (step lm bc s) h = (SHalt e s', h', t) -> fails s h e.
  Proof.
    intros L E. exists 1%nat, s', h', t. intros [|fuel] F; [lia|]. cbn [run]. destruct (N.leb_spec (lenN bc) (ip s)); [lia|]. now rewrite E.
  Qed.
  Lemma fails_after n s h s1 h1 t1 e : steps n s h s1 h1 t1 -> fails s1 h1 e -> fails s h e.
  Proof.
    intros A. induction A as [s h|n s h s1 h1 t1 s2 h2 t2 IL O E A IH]; [auto|]. intros F. destruct (IH F) as (m & s' & h' & t & R).
    exists (S m), s', h', (t1 ++ t). intros [|fuel] L; [lia|]. cbn [run]. destruct (N.leb_spec (lenN bc) (ip s)); [lia|]. rewrite E, R by lia. reflexivity.
  Qed.
  Lemma fails_step s h s1 h1 t1 e : ip s < lenN bc -> interp host (step lm bc s) h = (SCont s1, h1, t1) -> fails s1 h1 e -> fails s h e.
  Proof.
    intros IL E (m & s' & h' & t & R). exists (S m), s', h', (t1 ++ t). intros [|fuel] L; [lia|]. cbn [run]. destruct (N.leb_spec (lenN bc) (ip s)); [lia|]. rewrite E, R by lia. reflexivity.
  Qed.

  (** A number that is cut off *)
  Lemma scalar_short q ty k s h o L bf p : placed bc q (code [ins ty [k] []]) -> 0x10 <= ty <= 0x1A -> k < 65536 ->
    at_point s Dec o q L bf p -> opt s = false -> lenN bf < p + width ty -> fails s h EOob.
  Proof.
    intros P TY K AT OP LB. destruct (at_point_byte _ _ _ _ _ _ _ AT) as (BP & B8). destruct AT as ((R1 & R2 & R3 & R4 & R5) & A1 & A2 & A3).
    cbn [code flat_map instr_bytes opcode refs args ins app] in P. rewrite app_nil_r in P. destruct (placed_key bc q ty k _ P K s R5) as (HO & HK & HI).
    destruct (width_cases ty TY) as [(w & sg & IT & EW & NB)|[(d & EC & EA & EW & NB)|EB]].
    - destruct (int_short host lm bc WB s h ty {| i_w := w; i_signed := sg |}) as (s' & X & _); auto; [cbn [i_w]; rewrite BP, A2; lia|]. eapply fails_now; [lia|exact X].
    - eapply fails_now; [lia|]. rewrite (step_at lm bc s ty) by (auto; lia). rewrite align_eq by auto. rewrite byte_pos_ip.
      unfold exec_op. rewrite EC. unfold io_float, io_scalar. cbn [ip set_ip set_boff set_cur tr md buf cur en lift]. rewrite key_eq by auto. cbn [lift].
      unfold dlen. cbn [ip set_ip set_boff set_cur tr md buf cur en opt]. destruct (N.ltb_spec (lenN (buf s)) (byte_pos s + wbytes (f_width d))); [|rewrite BP, A2 in *; lia].
      rewrite OP. reflexivity.
    - rewrite EB in *. change (width 26) with 1 in LB. eapply fails_now; [lia|]. enter_op HO. unfold io_bool. enter_args. rewrite key_eq by (auto; lia). cbn [lift]. enter_args.
      destruct (N.ltb_spec (lenN (buf s)) (byte_pos s + 1)); [|rewrite BP, A2 in *; lia]. cbn [opt set_ip set_boff set_cur]. rewrite OP. reflexivity.
  Qed.
  (** A boolean that is not 0 or 1 *)
  Lemma bool_bad q k s h o L pre v rest : placed bc q (code [ins 0x1A [k] []]) -> k < 65536 -> at_point s Dec o q L (pre ++ v :: rest) (lenN pre) -> 1 < v -> fails s h EValidation.
  Proof.
    intros P K AT V. destruct (at_point_byte _ _ _ _ _ _ _ AT) as (BP & B8). destruct AT as ((R1 & R2 & R3 & R4 & R5) & A1 & A2 & A3).
    cbn [code flat_map instr_bytes opcode refs args ins app] in P. destruct (placed_key bc q _ k _ P K s R5) as (HO & HK & HI).
    destruct (bool_dec host lm bc WB s h HO B8 R1 HI) as (X & _); [rewrite BP, A2, lenN_app, lenN_cons; lia|].
    eapply fails_now; [lia|]. apply X. rewrite BP, A2. unfold nthN, lenN. rewrite Nat2N.id, app_nth2, Nat.sub_diag by lia. exact V.
  Qed.
  (** A counter that is cut off *)
  Lemma counter_short q w k s h o L bf p : placed bc q (code [ins (array_op w) [k] []]) -> counter w -> k < 65536 ->
    at_point s Dec o q L bf p -> lenN bf < p + w -> fails s h EOob.
  Proof.
    intros P CW K AT LB. destruct (at_point_byte _ _ _ _ _ _ _ AT) as (BP & B8). destruct AT as ((R1 & R2 & R3 & R4 & R5) & A1 & A2 & A3).
    cbn [code flat_map instr_bytes opcode refs args ins app] in P. destruct (placed_key bc q _ k _ P K s R5) as (HO & HK & HI).
    eapply fails_now; [lia|]. rewrite (step_at lm bc s (array_op w)) by (auto; lia). destruct CW as [-> |[-> | ->]]; cbn [array_op] in *; (rewrite align_eq by (auto; reflexivity)); rewrite byte_pos_ip;
    unfold exec_op; cbn [classify]; unfold arr_pre; cbn [ip set_ip set_boff set_cur tr md buf cur en lift]; rewrite key_eq by auto; cbn [lift]; cbn [ip set_ip set_boff set_cur tr md buf cur en opt];
    rewrite R1; unfold dlen; cbn [ip set_ip set_boff set_cur tr md buf cur en opt wbytes].
    all: match goal with |- context [if ?x then _ else _] => destruct x eqn:EX end; [reflexivity|].
    all: exfalso; rewrite BP, A2 in EX; cbn [wbytes] in EX; lia.
  Qed.
  (** A counted string that is cut off *)
  Lemma string_short q w k s h o L pre old : placed bc q (code [ins (string_op w) [k] []]) -> counter w -> k < 65536 ->
    at_point s Dec o q L (pre ++ old) (lenN pre) -> wf_bytes (pre ++ old) -> (w <= lenN old -> lenN old < w + val_of o (firstn (N.to_nat w) old)) -> fails s h EOob.
  Proof.
    intros P CW K AT WF LB. destruct (at_point_byte _ _ _ _ _ _ _ AT) as (BP & B8). destruct AT as ((R1 & R2 & R3 & R4 & R5) & A1 & A2 & A3).
    assert (SB : sub (buf s) (byte_pos s) w = firstn (N.to_nat w) old) by (rewrite A2, BP, sub_skip; unfold sub; reflexivity).
    cbn [code flat_map instr_bytes opcode refs args ins app] in P. destruct (placed_key bc q _ k _ P K s R5) as (HO & HK & HI).
    eapply fails_now; [lia|]. rewrite (step_at lm bc s (string_op w)) by (auto; lia). assert (WS : wf_bytes (buf s)) by now rewrite A2.
    assert (LS : lenN (buf s) = lenN pre + lenN old) by (rewrite A2; apply lenN_app).
    destruct CW as [-> |[-> | ->]]; cbn [string_op] in *; (rewrite align_eq by (auto; reflexivity)); rewrite byte_pos_ip;
    unfold exec_op; cbn [classify]; unfold str_pre; cbn [ip set_ip set_boff set_cur tr md buf cur en lift]; rewrite key_eq by auto; cbn [lift]; cbn [ip set_ip set_boff set_cur tr md buf cur en opt];
    rewrite R1; unfold dlen; cbn [ip set_ip set_boff set_cur tr md buf cur en opt].
    all: match goal with |- context [if ?x then _ else _] => destruct x eqn:EX end; [reflexivity|].
    all: rewrite BP in *; cbn [wbytes] in EX.
    all: rewrite read_word_eq by auto; cbn [wbytes].
    all: match goal with |- context [if ?x then _ else _] => destruct x eqn:EY end; [|exfalso; lia].
    all: cbn [lift]; rewrite R4, SB.
    all: match goal with |- context [if ?x then _ else _] => destruct x eqn:EZ end; [reflexivity|].
    all: exfalso; specialize (LB ltac:(lia)); lia.
  Qed.
End Fail.
