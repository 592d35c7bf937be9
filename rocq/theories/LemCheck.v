(** Validation, constants, booleans, optional fields, dispatch, computed fields. *)
From Verif Require Import Base SpecBytes LemBase ModelWord LemWord ModelBits LemBits ModelFloat ModelTrans
  ModelVM SpecVM LemAct LemSafe LemRun LemSafety LemWire LemInstr LemField LemTrans.
Ltac Zify.zify_post_hook ::= Z.div_mod_to_equations.

Ltac enter_op HO := rewrite (step_at _ _ _ _) with (2 := HO) by lia;
  ((rewrite align_no by reflexivity) || (rewrite align_eq by (auto; reflexivity); rewrite ?byte_pos_ip));
  unfold exec_op;
  match goal with |- context [classify ?x] => let y := eval vm_compute in (classify x) in change (classify x) with y end;
  cbv iota.
Ltac enter_args := cbn [ip set_ip set_boff set_cur set_opt tr md buf cur en boff opt lift stk loops]; unfold dlen;
  cbn [ip set_ip set_boff set_cur set_opt tr md buf cur en boff opt lift stk loops].

Lemma fetch_operand w bc s i : wf_bytes bc -> ip s + i + wbytes w <= lenN bc ->
  fetch w bc (ip s + i) = Ok (operand_at bc s i (wbytes w), ip s + i + wbytes w).
Proof. intros W L. rewrite fetch_at by auto. reflexivity. Qed.

Lemma emit_int ty t : int_type ty = Some t -> emit_width ty = Some (i_w t) /\ (ty =? 0x18) = false /\ (ty =? 0x19) = false.
Proof.
  unfold int_type. intros E.
  repeat match type of E with
  | match ?x with _ => _ end = Some _ => destruct x; try discriminate E; try (injection E as <-; repeat split; reflexivity)
  end.
Qed.

Section Check.
  Context {H : Type} (host : H -> request -> H * reply) (lm : libm) (bc : list N).
  Hypothesis WB : wf_bytes bc.

  Lemma range_int s h n : opcode_at bc s = 0x42 -> wf_bytes (buf s) ->
    let ty := nthN bc (ip s + 1) in type_bytes ty = Some n ->
    ip s + 2 + 2 * n <= lenN bc -> n <= cur s <= lenN (buf s) ->
    let num x := number n (type_signed ty) x in
    let v := num (val_of (en s) (sub (buf s) (cur s - n) n)) in
    let mn := num (operand_at bc s 2 n) in let mx := num (operand_at bc s (2 + n) n) in
    let s' := set_ip s (ip s + 2 + 2 * n) in
    interp host (step lm bc s) h = (if ((mn <=? v) && (v <=? mx))%Z then SCont s' else SHalt EValidation s', h, []).
  Proof.
    intros HO WF ty HT HI HC num v mn mx s'. destruct (type_int _ _ HT) as (w & IT & EW & _).
    enter_op HO. unfold range_check. enter_args. rewrite arg1_eq by (auto; lia). cbn [lift]. fold ty. rewrite IT. cbn [i_w].
    replace (ip s + 1 + 1) with (ip s + 2) by lia.
    rewrite fetch_operand by (auto; lia). cbn [lift]. rewrite EW. replace (ip s + 2 + n) with (ip s + (2 + n)) by lia.
    rewrite fetch_operand by (auto; lia). cbn [lift]. rewrite EW. enter_args.
    destruct (N.ltb_spec (cur s) n); [lia|]. rewrite read_word_eq by auto. rewrite EW.
    destruct (N.leb_spec (cur s - n + n) (lenN (buf s))); [|lia]. cbn [lift].
    rewrite !number_ival. cbn [i_w i_signed]. rewrite EW. fold (num (operand_at bc s 2 n)) (num (operand_at bc s (2 + n) n)).
    fold mn mx. fold (num (val_of (en s) (sub (buf s) (cur s - n) n))). fold v.
    replace (ip s + (2 + n) + n) with (ip s + 2 + 2 * n) by lia. unfold s'.
    destruct (Z.ltb_spec v mn), (Z.ltb_spec mx v), (Z.leb_spec mn v), (Z.leb_spec v mx); cbn [orb andb interp]; try lia; reflexivity.
  Qed.
  Lemma range_float s h f n : opcode_at bc s = 0x42 -> wf_bytes (buf s) ->
    (nthN bc (ip s + 1) = 0x18 /\ f = F32 /\ n = 4) \/ (nthN bc (ip s + 1) = 0x19 /\ f = F64 /\ n = 8) ->
    ip s + 2 + 2 * n <= lenN bc -> n <= cur s <= lenN (buf s) ->
    let v := val_of (en s) (sub (buf s) (cur s - n) n) in
    let mn := operand_at bc s 2 n in let mx := operand_at bc s (2 + n) n in
    let s' := set_ip s (ip s + 2 + 2 * n) in
    interp host (step lm bc s) h = (if flt f v mn || flt f mx v then SHalt EValidation s' else SCont s', h, []).
  Proof.
    intros HO WF HT HI HC v mn mx s'.
    assert (EX : exists w, wbytes w = n /\ exec_op lm bc 0x42 (set_ip s (ip s + 1)) =
      (let* (mn, p) := fetch w bc (ip s + 2) in
       let* (mx, p) := fetch w bc p in
       if cur s <? wbytes w then Halt EOob (set_ip s p)
       else let* v := read_word w (en s) (buf s) (cur s - wbytes w) in
            if flt f v mn || flt f mx v then Halt EValidation (set_ip s p) else Cont (set_ip s p))).
    { destruct HT as [(HT & -> & ->)|(HT & -> & ->)]; [exists W4|exists W8]; (split; [reflexivity|]);
      unfold exec_op; (match goal with |- context [classify ?x] => let y := eval vm_compute in (classify x) in change (classify x) with y end);
      cbv iota; unfold range_check; enter_args; rewrite arg1_eq by (auto; lia); cbn [lift]; rewrite HT;
      replace (ip s + 1 + 1) with (ip s + 2) by lia; reflexivity. }
    destruct EX as (w & EW & EX).
    rewrite (step_at lm bc s _ ltac:(lia) HO), align_no by reflexivity. rewrite EX. clear EX HT.
    rewrite fetch_operand by (auto; lia). cbn [lift]. rewrite EW. replace (ip s + 2 + n) with (ip s + (2 + n)) by lia.
    rewrite fetch_operand by (auto; lia). cbn [lift]. rewrite EW.
    destruct (N.ltb_spec (cur s) n); [lia|]. rewrite read_word_eq by auto. rewrite EW.
    destruct (N.leb_spec (cur s - n + n) (lenN (buf s))); [|lia]. cbn [lift].
    fold mn mx v. replace (ip s + (2 + n) + n) with (ip s + 2 + 2 * n) by lia. unfold s'.
    destruct (_ || _); reflexivity.
  Qed.

  Lemma enum_scan_spec w actual : forall left p, p + N.of_nat left * wbytes w <= lenN bc ->
    enum_scan w bc p actual left =
      Ok (if existsb (N.eqb actual) (map (listed bc p (wbytes w)) (seq 0 left))
          then Some (p + N.of_nat left * wbytes w) else None).
  Proof.
    induction left; intros p HL; cbn [enum_scan seq map existsb]; [reflexivity|].
    rewrite fetch_at by (auto; lia). cbn [bindR]. unfold listed at 1. cbn [N.of_nat]. rewrite N.mul_0_l, N.add_0_r.
    destruct (actual =? val_of LE (sub bc p (wbytes w))); cbn [orb].
    - f_equal. f_equal. lia.
    - rewrite IHleft by lia.
      assert (E : map (listed bc (p + wbytes w) (wbytes w)) (seq 0 left) = map (listed bc p (wbytes w)) (seq 1 left)).
      { rewrite <- seq_shift, map_map. apply map_ext. intros i. unfold listed. f_equal. f_equal. lia. }
      rewrite E. destruct (existsb _ _); [|reflexivity]. f_equal. f_equal. lia.
  Qed.
  Lemma enum_int s h n : opcode_at bc s = 0x4B -> wf_bytes (buf s) -> boff s < 8 ->
    let ty := nthN bc (ip s + 1) in type_bytes ty = Some n ->
    let count := operand_at bc s 2 2 in
    ip s + 4 + count * n <= lenN bc -> n <= byte_pos s <= lenN (buf s) ->
    let v := val_of (en s) (sub (buf s) (byte_pos s - n) n) in
    let s1 := set_boff (set_cur s (byte_pos s)) 0 in
    interp host (step lm bc s) h =
      (if existsb (N.eqb v) (all_listed bc (ip s + 4) n count)
       then SCont (set_ip s1 (ip s + 4 + count * n)) else SHalt EValidation (set_ip s1 (ip s + 1)), h, []).
  Proof.
    intros HO WF B ty HT count HI HC v s1. destruct (type_int _ _ HT) as (w & IT & EW & _).
    enter_op HO. unfold enum_check. enter_args. rewrite arg1_eq by (auto; lia). cbn [lift]. fold ty.
    replace (ip s + 1 + 1) with (ip s + 2) by lia.
    rewrite fetch_operand by (auto; cbn [wbytes]; lia). cbn [lift wbytes]. fold count. rewrite IT. unfold read_back. enter_args.
    rewrite EW. destruct (N.ltb_spec (byte_pos s) n); [lia|]. rewrite read_word_eq by auto. rewrite EW.
    destruct (N.leb_spec (byte_pos s - n + n) (lenN (buf s))); [|lia]. cbn [lift]. fold v.
    replace (ip s + 2 + 2) with (ip s + 4) by lia.
    rewrite enum_scan_spec by (rewrite EW; lia). rewrite EW. cbn [lift]. fold (all_listed bc (ip s + 4) n count).
    destruct (existsb _ _); cbn [interp]; [|reflexivity]. rewrite N2Nat.id. reflexivity.
  Qed.
  Lemma in_existsb v l : existsb (N.eqb v) l = true <-> In v l.
  Proof.
    rewrite existsb_exists. split.
    - intros (x & I & E). apply N.eqb_eq in E. now subst.
    - intros I. exists v. split; auto. apply N.eqb_refl.
  Qed.

  (** Constants *)
  Lemma const_check_enc s h n : opcode_at bc s = 0x40 -> boff s < 8 -> md s = Enc ->
    let ty := nthN bc (ip s + 3) in type_bytes ty = Some n ->
    ip s + 4 + n <= lenN bc -> byte_pos s + n <= lenN (buf s) ->
    let c := operand_at bc s 4 n in
    interp host (step lm bc s) h =
      (SCont (mkst (md s) (put (buf s) (byte_pos s) (bytes_of (en s) (N.to_nat n) c)) (ip s + 4 + n)
                   (byte_pos s + n) 0 (en s) (tr s) (opt s) (loops s) (stk s)), h, []).
  Proof.
    intros HO B M ty HT HI HC c. destruct (type_int _ _ HT) as (w & IT & EW & _).
    enter_op HO. unfold const_check. enter_args. rewrite key_eq by (auto; lia). cbn [lift].
    rewrite arg1_eq by (auto; lia). cbn [lift]. fold ty. rewrite IT.
    replace (ip s + 3 + 1) with (ip s + 4) by lia. rewrite fetch_operand by (auto; lia). cbn [lift]. rewrite EW. enter_args.
    destruct (N.ltb_spec (lenN (buf s)) (byte_pos s + n)); [lia|]. rewrite M. rewrite write_word_eq. rewrite EW.
    destruct (N.leb_spec (byte_pos s + n) (lenN (buf s))); [|lia]. cbn [lift interp]. rewrite nbytes_w, EW. rewrite <- M. reflexivity.
  Qed.
  Lemma const_check_dec s h n : opcode_at bc s = 0x40 -> boff s < 8 -> md s = Dec -> wf_bytes (buf s) ->
    let ty := nthN bc (ip s + 3) in type_bytes ty = Some n ->
    ip s + 4 + n <= lenN bc -> byte_pos s + n <= lenN (buf s) ->
    let c := operand_at bc s 4 n in
    let s1 := set_ip (set_boff (set_cur s (byte_pos s)) 0) (ip s + 4 + n) in
    let v := val_of (en s) (sub (buf s) (byte_pos s) n) in
    (v <> c -> interp host (step lm bc s) h = (SHalt EValidation s1, h, [])) /\
    (v = c -> forall h' r, let rq := ask (key_at bc s) ty (cvar n c) HConst in
       host h rq = (h', r) ->
       interp host (step lm bc s) h =
         (if r_ok r then SCont (set_cur s1 (byte_pos s + n)) else SHalt ECallback s1, h', [(rq, r)])).
  Proof.
    intros HO B M WF ty HT HI HC c s1 v. destruct (type_int _ _ HT) as (w & IT & EW & _).
    enter_op HO. unfold const_check. enter_args. rewrite key_eq by (auto; lia). cbn [lift].
    rewrite arg1_eq by (auto; lia). cbn [lift]. fold ty. rewrite IT.
    replace (ip s + 3 + 1) with (ip s + 4) by lia. rewrite fetch_operand by (auto; lia). cbn [lift]. rewrite EW. enter_args.
    destruct (N.ltb_spec (lenN (buf s)) (byte_pos s + n)); [lia|]. rewrite M. rewrite read_word_eq by auto. rewrite EW.
    destruct (N.leb_spec (byte_pos s + n) (lenN (buf s))); [|lia]. cbn [lift]. fold v c. split.
    - intros NE. destruct (N.eqb_spec v c); [easy|]. reflexivity.
    - intros E h' r HH. destruct (N.eqb_spec v c); [|easy]. rewrite <- cvar_w, EW, E.
      destruct (r_ok r) eqn:R.
      + erewrite interp_call; [|exact HH|exact R]. reflexivity.
      + erewrite interp_call_no; [|exact HH|exact R]. reflexivity.
  Qed.
  Lemma const_write_any s h n : opcode_at bc s = 0x41 -> boff s < 8 ->
    let ty := nthN bc (ip s + 1) in type_bytes ty = Some n -> type_signed ty = false ->
    ip s + 2 + n <= lenN bc -> byte_pos s + n <= lenN (buf s) ->
    let c := operand_at bc s 2 n in
    interp host (step lm bc s) h =
      (SCont (mkst (md s) (put (buf s) (byte_pos s) (bytes_of (en s) (N.to_nat n) c)) (ip s + 2 + n)
                   (byte_pos s + n) 0 (en s) (tr s) (opt s) (loops s) (stk s)), h, []).
  Proof.
    intros HO B ty HT SG HI HC c. destruct (type_int _ _ HT) as (w & IT & EW & _).
    enter_op HO. unfold const_write. enter_args.
    rewrite arg1_eq by (auto; lia). cbn [lift]. fold ty. rewrite IT, SG.
    replace (ip s + 1 + 1) with (ip s + 2) by lia. rewrite fetch_operand by (auto; lia). cbn [lift]. rewrite EW. enter_args.
    destruct (N.ltb_spec (lenN (buf s)) (byte_pos s + n)); [lia|]. rewrite write_word_eq. rewrite EW.
    destruct (N.leb_spec (byte_pos s + n) (lenN (buf s))); [|lia]. cbn [lift interp]. rewrite nbytes_w, EW. reflexivity.
  Qed.

  (** Booleans *)
  Lemma bool_enc s h h' r : opcode_at bc s = 0x1A -> boff s < 8 -> md s = Enc -> ip s + 3 <= lenN bc ->
    byte_pos s + 1 <= lenN (buf s) ->
    let rq := ask (key_at bc s) 0x1A (cvar 1 0) (HField 0x1A TNone) in
    let s1 := set_ip (set_boff (set_cur s (byte_pos s)) 0) (ip s + 3) in
    host h rq = (h', r) -> r_ok r = true ->
    interp host (step lm bc s) h =
      (if answer 1 0 r <=? 1 then SCont (set_opt (set_cur (set_buf s1 (put (buf s) (byte_pos s) [answer 1 0 r])) (byte_pos s + 1)) false)
       else SHalt EValidation s1, h', [(rq, r)]).
  Proof.
    intros HO B M HI HC rq s1 HH HR. enter_op HO. unfold io_bool. enter_args. rewrite key_eq by (auto; lia). cbn [lift]. enter_args.
    destruct (N.ltb_spec (lenN (buf s)) (byte_pos s + 1)); [lia|]. rewrite M.
    erewrite interp_call; [|exact HH|exact HR]. rewrite answer_got. cbn [wbytes].
    destruct (N.ltb_spec 1 (answer 1 0 r)), (N.leb_spec (answer 1 0 r) 1); try lia.
    - reflexivity.
    - change (write_u8 (buf s) (byte_pos s) (answer 1 0 r)) with (write_word W1 (en s) (buf s) (byte_pos s) (answer 1 0 r)).
      rewrite write_word_eq. cbn [wbytes]. destruct (N.leb_spec (byte_pos s + 1) (lenN (buf s))); [|lia]. cbn [lift interp].
      assert (E : bytes_of (en s) (nbytes W1) (answer 1 0 r) = [answer 1 0 r]).
      { cbn [nbytes]. unfold bytes_of. cbn [le_bytes]. rewrite N.mod_small by lia. now destruct (en s). }
      rewrite E. reflexivity.
  Qed.
  Lemma bool_dec s h : opcode_at bc s = 0x1A -> boff s < 8 -> md s = Dec -> ip s + 3 <= lenN bc ->
    byte_pos s + 1 <= lenN (buf s) ->
    let v := nthN (buf s) (byte_pos s) in
    let s1 := set_ip (set_boff (set_cur s (byte_pos s)) 0) (ip s + 3) in
    (1 < v -> interp host (step lm bc s) h = (SHalt EValidation s1, h, [])) /\
    (v <= 1 -> forall h' r, let rq := ask (key_at bc s) 0x1A (cvar 1 v) (HField 0x1A TNone) in
      host h rq = (h', r) -> interp host (step lm bc s) h =
      (if r_ok r then SCont (set_opt (set_cur s1 (byte_pos s + 1)) false) else SHalt ECallback s1, h', [(rq, r)])).
  Proof.
    intros HO B M HI HC v s1. enter_op HO. unfold io_bool. enter_args. rewrite key_eq by (auto; lia). cbn [lift]. enter_args.
    destruct (N.ltb_spec (lenN (buf s)) (byte_pos s + 1)); [lia|]. rewrite M. unfold read_u8. rewrite mem_eq.
    destruct (N.ltb_spec (byte_pos s) (lenN (buf s))); [|lia]. cbn [lift]. fold v. split.
    - intros V. destruct (N.ltb_spec 1 v); [|lia]. reflexivity.
    - intros V h' r HH. destruct (N.ltb_spec 1 v); [lia|]. destruct (r_ok r) eqn:R.
      + erewrite interp_call; [|exact HH|exact R]. reflexivity.
      + erewrite interp_call_no; [|exact HH|exact R]. reflexivity.
  Qed.

  (** Missing optional fields *)
  Lemma missing_optional s h h' r n : scalar_bytes (opcode_at bc s) = Some n -> boff s < 8 -> ip s + 3 <= lenN bc ->
    opt s = true -> lenN (buf s) < byte_pos s + n ->
    let rq := ask (key_at bc s) (opcode_at bc s) (cvar n 0) (HMissing (opcode_at bc s)) in
    host h rq = (h', r) ->
    let s1 := set_opt (set_ip (set_boff (set_cur s (byte_pos s)) 0) (ip s + 3)) false in
    interp host (step lm bc s) h = (if r_ok r then SCont s1 else SHalt ECallback s1, h', [(rq, r)]).
  Proof.
    intros HT B HI OP HC rq HH s1.
    assert (EX : exists w op, wbytes w = n /\ opcode_at bc s = op /\
      interp host (step lm bc s) h = interp host (call s1 (key_at bc s) op (PInt w 0) (HMissing op) (fun _ => Cont s1)) h).
    { assert (C : (opcode_at bc s = 0x18 /\ n = 4) \/ (opcode_at bc s = 0x19 /\ n = 8) \/ (opcode_at bc s = 0x1A /\ n = 1) \/
        type_bytes (opcode_at bc s) = Some n).
      { clear - HT. unfold scalar_bytes in HT.
        destruct (N.eqb_spec (opcode_at bc s) 0x18) as [E|]; [rewrite E in *; injection HT; auto|].
        destruct (N.eqb_spec (opcode_at bc s) 0x19) as [E|]; [rewrite E in *; injection HT; auto|].
        destruct (N.eqb_spec (opcode_at bc s) 0x1A) as [E|]; [rewrite E in *; injection HT; auto|].
        right; right; right. revert HT. generalize dependent (opcode_at bc s). intros op H1 H2 H3.
        repeat match goal with |- context [match ?x with _ => _ end] => is_var x; destruct x; try easy end. }
      destruct C as [[HO ->]|[[HO ->]|[[HO ->]|HT']]].
      - exists W4, 0x18. split; [reflexivity|]. split; [exact HO|].
        enter_op HO. unfold io_float, io_scalar. enter_args. rewrite key_eq by (auto; lia). cbn [lift]. enter_args.
        cbn [f_width wbytes]. destruct (N.ltb_spec (lenN (buf s)) (byte_pos s + 4)); [|lia]. rewrite OP. reflexivity.
      - exists W8, 0x19. split; [reflexivity|]. split; [exact HO|].
        enter_op HO. unfold io_float, io_scalar. enter_args. rewrite key_eq by (auto; lia). cbn [lift]. enter_args.
        cbn [f_width wbytes]. destruct (N.ltb_spec (lenN (buf s)) (byte_pos s + 8)); [|lia]. rewrite OP. reflexivity.
      - exists W1, 0x1A. split; [reflexivity|]. split; [exact HO|].
        enter_op HO. unfold io_bool. enter_args. rewrite key_eq by (auto; lia). cbn [lift]. enter_args.
        destruct (N.ltb_spec (lenN (buf s)) (byte_pos s + 1)); [|lia]. rewrite OP. reflexivity.
      - destruct (type_int _ _ HT') as (w & IT & EW & EC & EA). exists w, (opcode_at bc s).
        split; [exact EW|]. split; [reflexivity|].
        rewrite (step_at lm bc s _ ltac:(lia) eq_refl), align_eq by auto. unfold exec_op. rewrite EC.
        unfold io_int, io_scalar. enter_args. rewrite key_eq by (auto; lia). cbn [lift i_w]. enter_args. rewrite EW.
        rewrite byte_pos_ip. destruct (N.ltb_spec (lenN (buf s)) (byte_pos s + n)); [|lia]. rewrite OP. reflexivity. }
    destruct EX as (w & op & EW & EO & EX). rewrite EX. subst rq. rewrite EO in HH. rewrite <- EW, cvar_w in HH. rewrite EO, <- EW, cvar_w.
    destruct (r_ok r) eqn:R.
    - erewrite interp_call; [|exact HH|exact R]. reflexivity.
    - erewrite interp_call_no; [|exact HH|exact R]. reflexivity.
  Qed.

  (** Jumps and switches *)
  Lemma jump_to_spec s base off h : interp host (jump_to bc s base off) h = (jumps bc s base off, h, []).
  Proof.
    unfold jump_to, jumps. assert (E : toS 4 off = number 4 true off).
    { unfold toS, number. cbn [andb]. rewrite N.ltb_antisym. destruct (_ <=? _); reflexivity. }
    rewrite E. set (z := (Z.of_N base + number 4 true off)%Z).
    destruct (Z.ltb_spec z 0), (Z.leb_spec 0 z); try lia; cbn [andb interp]; auto.
    destruct (N.ltb_spec (lenN bc) (Z.to_N z)), (Z.leb_spec z (Z.of_N (lenN bc))); try lia; reflexivity.
  Qed.
  Lemma switch_scan_found disc : forall n p target, p + N.of_nat n * 12 <= lenN bc ->
    switch_scan bc p n disc true target = Ok target.
  Proof.
    induction n; intros p target HL; cbn [switch_scan]; auto.
    rewrite fetch_at by (auto; cbn [wbytes]; lia). cbn [bindR wbytes].
    rewrite fetch_at by (auto; cbn [wbytes]; lia). cbn [bindR wbytes negb andb].
    apply IHn. lia.
  Qed.
  Lemma switch_scan_spec disc : forall n p dflt, p + N.of_nat n * 12 <= lenN bc ->
    switch_scan bc p n disc false dflt = Ok (dispatch (map (case_at bc p) (seq 0 n)) dflt disc).
  Proof.
    induction n; intros p dflt HL; cbn [switch_scan seq map dispatch]; auto.
    rewrite fetch_at by (auto; cbn [wbytes]; lia). cbn [bindR wbytes].
    rewrite fetch_at by (auto; cbn [wbytes]; lia). cbn [bindR wbytes negb andb].
    unfold case_at at 1. cbn [N.of_nat]. rewrite N.mul_0_l, N.add_0_r.
    destruct (disc =? val_of LE (sub bc p 8)).
    - apply switch_scan_found. lia.
    - rewrite IHn by lia. f_equal. f_equal. rewrite <- (seq_shift n 0), map_map. apply map_ext. intros i. unfold case_at.
      replace (p + 8 + 4 + N.of_nat i * 12) with (p + N.of_nat (S i) * 12) by lia. reflexivity.
  Qed.
  Lemma switch_list s h h' r : opcode_at bc s = 0x51 ->
    let base := ip s + 7 in let table := base + operand_at bc s 3 4 in
    let count := val_of LE (sub bc table 2) in
    base <= lenN bc -> table + 6 + 12 * count <= lenN bc ->
    let rq := ask (key_at bc s) 0x06 (cvar 8 0) HQuery in
    host h rq = (h', r) -> r_ok r = true ->
    let off := dispatch (case_list bc (table + 6) count) (val_of LE (sub bc (table + 2) 4)) (answer 8 0 r) in
    interp host (step lm bc s) h = (jumps bc (set_ip s base) base off, h', [(rq, r)]).
  Proof.
    intros HO base table count HI HL rq HH HR off. enter_op HO. unfold switch_op. enter_args.
    rewrite key_eq by (auto; lia). cbn [lift]. rewrite fetch_operand by (auto; cbn [wbytes]; lia). cbn [lift wbytes].
    replace (ip s + 3 + 4) with base by (unfold base; lia). fold table.
    destruct (N.ltb_spec (lenN bc) table); [lia|].
    rewrite fetch_at by (auto; cbn [wbytes]; lia). cbn [lift wbytes]. fold count.
    rewrite fetch_at by (auto; cbn [wbytes]; lia). cbn [lift wbytes].
    erewrite interp_call; [|exact HH|exact HR]. rewrite switch_scan_spec by lia. cbn [lift].
    rewrite jump_to_spec. replace (table + 2 + 4) with (table + 6) by lia. reflexivity.
  Qed.
  Lemma dispatch_dense p n : forall mn dflt disc, (* the n entries from p on *)
    dispatch (map (fun i => (mn + N.of_nat i, val_of LE (sub bc (p + N.of_nat i * 4) 4))) (seq 0 n)) dflt disc =
    if (mn <=? disc) && (disc <? mn + N.of_nat n) then val_of LE (sub bc (p + (disc - mn) * 4) 4) else dflt.
  Proof.
    revert p. induction n; intros p mn dflt disc; cbn [seq map dispatch].
    - destruct (N.leb_spec mn disc), (N.ltb_spec disc (mn + N.of_nat 0)); cbn [andb]; auto; lia.
    - destruct (N.eqb_spec disc (mn + N.of_nat 0)) as [E|E].
      + destruct (N.leb_spec mn disc), (N.ltb_spec disc (mn + N.of_nat (S n))); cbn [andb]; try lia.
        do 3 f_equal. lia.
      + assert (EL : map (fun i => (mn + N.of_nat i, val_of LE (sub bc (p + N.of_nat i * 4) 4))) (seq 1 n) =
                     map (fun i => (mn + 1 + N.of_nat i, val_of LE (sub bc (p + 4 + N.of_nat i * 4) 4))) (seq 0 n)).
        { rewrite <- seq_shift, map_map. apply map_ext. intros i. f_equal; [lia|]. do 2 f_equal. lia. }
        rewrite EL, IHn.
        destruct (N.leb_spec (mn + 1) disc), (N.ltb_spec disc (mn + 1 + N.of_nat n)), (N.leb_spec mn disc), (N.ltb_spec disc (mn + N.of_nat (S n))); cbn [andb]; try lia; auto.
        do 2 f_equal. lia.
  Qed.
  Lemma switch_dense s h h' r : opcode_at bc s = 0x53 -> lenN bc < 2 ^ 62 ->
    let base := ip s + 7 in let table := base + operand_at bc s 3 4 in
    let mn := val_of LE (sub bc table 8) in let mx := val_of LE (sub bc (table + 8) 8) in
    mn <= mx -> base <= lenN bc -> table + 20 + 4 * (mx - mn + 1) <= lenN bc ->
    let rq := ask (key_at bc s) 0x06 (cvar 8 0) HQuery in
    host h rq = (h', r) -> r_ok r = true ->
    let off := dispatch (dense_list bc (table + 20) mn (mx - mn + 1)) (val_of LE (sub bc (table + 16) 4)) (answer 8 0 r) in
    interp host (step lm bc s) h = (jumps bc (set_ip s base) base off, h', [(rq, r)]).
  Proof.
    intros HO LB base table mn mx MM HI HL rq HH HR off. enter_op HO. unfold switch_table. enter_args.
    rewrite key_eq by (auto; lia). cbn [lift]. rewrite fetch_operand by (auto; cbn [wbytes]; lia). cbn [lift wbytes].
    replace (ip s + 3 + 4) with base by (unfold base; lia). fold table.
    destruct (N.ltb_spec (lenN bc) table); [lia|]. destruct (N.ltb_spec (lenN bc) (table + 20)); [lia|]. cbn [orb].
    rewrite fetch_at by (auto; cbn [wbytes]; lia). cbn [lift wbytes]. fold mn.
    rewrite fetch_at by (auto; cbn [wbytes]; lia). cbn [lift wbytes]. fold mx.
    rewrite fetch_at by (auto; cbn [wbytes]; lia). cbn [lift wbytes].
    erewrite interp_call; [|exact HH|exact HR]. rewrite answer_got. cbn [wbytes].
    unfold off, dense_list. rewrite dispatch_dense. rewrite N2Nat.id. set (disc := answer 8 0 r).
    replace (table + 8 + 8) with (table + 16) by lia. replace (table + 16 + 4) with (table + 20) by lia.
    destruct (N.leb_spec mn disc); cbn [andb].
    2: { rewrite jump_to_spec. reflexivity. }
    destruct (N.leb_spec disc mx), (N.ltb_spec disc (mn + (mx - mn + 1))); try lia.
    2: { rewrite jump_to_spec. reflexivity. }
    assert (BD : (disc - mn) * 4 < 2 ^ 62) by lia. change (2 ^ 62) with 4611686018427387904 in *. change (2 ^ 64) with 18446744073709551616.
    rewrite (N.mod_small ((disc - mn) * 4)) by lia. rewrite (N.mod_small (table + 20 + (disc - mn) * 4)) by lia.
    rewrite N.mod_small by lia.
    destruct (N.ltb_spec (lenN bc) (table + 20 + (disc - mn) * 4 + 4)); [lia|].
    rewrite slice_eq. destruct (N.leb_spec (table + 20 + (disc - mn) * 4 + 4) (lenN bc)); [|lia]. cbn [lift].
    rewrite jump_to_spec, il_comb_val by (now apply wf_sub). rewrite N.pow_0_r, N.mul_1_r. reflexivity.
  Qed.

  (** Computed fields *)
  Lemma emit_enc s h n v rest : opcode_at bc s = 0x65 -> md s = Enc ->
    let ty := nthN bc (ip s + 1) in type_bytes ty = Some n -> ip s + 2 <= lenN bc ->
    stk s = v :: rest -> cur s + n <= lenN (buf s) ->
    interp host (step lm bc s) h =
      (SCont (mkst (md s) (put (buf s) (cur s) (bytes_of (en s) (N.to_nat n) v)) (ip s + 2)
                   (cur s + n) (boff s) (en s) (tr s) (opt s) (loops s) rest), h, []).
  Proof.
    intros HO M ty HT HI HS HC. destruct (type_int _ _ HT) as (w & IT & EW & _).
    destruct (emit_int _ _ IT) as (EM & NF & _).
    enter_op HO. unfold emit. enter_args. rewrite arg1_eq by (auto; lia). cbn [lift]. fold ty.
    unfold pop. enter_args. rewrite HS. rewrite EM. unfold dlen. cbn [buf set_stk set_ip cur md en i_w]. rewrite EW.
    destruct (N.ltb_spec (lenN (buf s)) (cur s + n)); [lia|]. rewrite M, NF. rewrite write_word_eq, EW.
    destruct (N.leb_spec (cur s + n) (lenN (buf s))); [|lia]. cbn [lift interp].
    rewrite nbytes_w, EW. replace (ip s + 1 + 1) with (ip s + 2) by lia. rewrite <- M. reflexivity.
  Qed.
  Lemma emit_dec s h n v rest : opcode_at bc s = 0x65 -> md s = Dec -> wf_bytes (buf s) ->
    let ty := nthN bc (ip s + 1) in type_bytes ty = Some n -> ip s + 2 <= lenN bc ->
    stk s = v :: rest -> cur s + n <= lenN (buf s) ->
    let s1 := set_stk (set_ip s (ip s + 2)) rest in
    interp host (step lm bc s) h =
      (if val_of (en s) (sub (buf s) (cur s) n) =? v then SCont (set_cur s1 (cur s + n)) else SHalt EValidation s1, h, []).
  Proof.
    intros HO M WF ty HT HI HS HC s1. destruct (type_int _ _ HT) as (w & IT & EW & _).
    destruct (emit_int _ _ IT) as (EM & NF & ND).
    enter_op HO. unfold emit. enter_args. rewrite arg1_eq by (auto; lia). cbn [lift]. fold ty.
    unfold pop. enter_args. rewrite HS. rewrite EM. unfold dlen. cbn [buf set_stk set_ip cur md en i_w]. rewrite EW.
    destruct (N.ltb_spec (lenN (buf s)) (cur s + n)); [lia|]. rewrite M. rewrite read_word_eq by auto. rewrite EW.
    destruct (N.leb_spec (cur s + n) (lenN (buf s))); [|lia]. cbn [lift]. unfold emit_matches. rewrite NF, ND.
    replace (ip s + 1 + 1) with (ip s + 2) by lia.
    destruct (_ =? v); reflexivity.
  Qed.
End Check.

(** An integer field, either mode *)
Lemma answer_mod n r : n = 1 \/ n = 2 \/ n = 4 \/ n = 8 -> answer n 0 r mod 256 ^ n = answer n 0 r.
Proof.
  intros HN. replace (256 ^ n) with (2 ^ (8 * n)) by (rewrite N.pow_mul_r; reflexivity). unfold answer. destruct (r_val r).
  - apply N.mod_mod. apply N.pow_nonzero. lia.
  - apply N.mod_0_l. apply N.pow_nonzero. lia.
Qed.
Lemma type_sizes ty n : type_bytes ty = Some n -> n = 1 \/ n = 2 \/ n = 4 \/ n = 8.
Proof. intros E. destruct (type_int _ _ E) as (w & _ & <- & _). destruct w; cbn [wbytes]; auto. Qed.
Lemma field_any {H} (host : H -> request -> H * reply) lm bc s h h' r n :
  wf_bytes bc -> wf_bytes (buf s) -> type_bytes (opcode_at bc s) = Some n -> ip s + 3 <= lenN bc ->
  boff s < 8 -> tr s = TNone -> byte_pos s + n <= lenN (buf s) ->
  host h (field_request bc s n) = (h', r) -> r_ok r = true ->
  exists s1, interp host (step lm bc s) h = (SCont s1, h', [(field_request bc s n, r)]) /\
    md s1 = md s /\ ip s1 = ip s + 3 /\ cur s1 = byte_pos s + n /\ boff s1 = 0 /\ en s1 = en s /\
    wf_bytes (buf s1) /\ lenN (buf s1) = lenN (buf s) /\
    val_of (en s) (sub (buf s1) (byte_pos s) n) = processed s n r /\
    tr s1 = TNone /\ opt s1 = false /\ loops s1 = loops s /\ stk s1 = stk s.
Proof.
  intros WB WF HT HI B T HL. unfold field_request, processed. destruct (type_int _ _ HT) as (w & IT & EW & _).
  destruct (md s) eqn:M; intros HH HR.
  - pose proof (fun raw => int_enc host lm bc WB s h h' r _ _ raw eq_refl IT HI B M) as X. cbn [i_w] in X.
    rewrite EW, T in X. cbn [eng_w eng_op] in X. rewrite <- (cvar_w w), EW in X.
    specialize (X (answer n 0 r) HL HH HR).
    rewrite answer_got, EW in X. cbn [to_wire] in X. specialize (X eq_refl).
    assert (LB : lenN (bytes_of (en s) (N.to_nat n) (answer n 0 r)) = n) by (rewrite lenN_bytes_of; lia).
    eexists. split; [exact X|]. unfold stored. cbn [md ip cur boff en buf tr opt loops stk].
    repeat (split; [reflexivity || assumption|]). 
    split; [apply wf_put; [auto|apply wf_bytes_of|lia]|]. split; [apply lenN_put; lia|].
    split; [|auto].
    pose proof (sub_put_here (buf s) (byte_pos s) (bytes_of (en s) (N.to_nat n) (answer n 0 r)) ltac:(lia)) as Y.
    rewrite LB in Y. rewrite Y, val_bytes, N2Nat.id. apply answer_mod. eapply type_sizes; eauto.
  - pose proof (int_dec host lm bc WB s h h' r _ _ (val_of (en s) (sub (buf s) (byte_pos s) n)) eq_refl IT HI B M) as X. cbn [i_w] in X.
    rewrite EW, T in X. cbn [eng_w eng_op] in X. rewrite <- (cvar_w w), EW in X.
    specialize (X HL WF HH HR eq_refl).
    eexists. split; [exact X|]. unfold taken. cbn [md ip cur boff en buf tr opt loops stk]. auto 20.
Qed.

Lemma operand_shift bc s s1 k i n : ip s1 = ip s + k -> operand_at bc s1 i n = operand_at bc s (k + i) n.
Proof. intros E. unfold operand_at. rewrite E. do 2 f_equal. lia. Qed.

Lemma field_then_range {H} (host : H -> request -> H * reply) lm bc s h h' r n :
  wf_bytes bc -> wf_bytes (buf s) -> type_bytes (opcode_at bc s) = Some n ->
  boff s < 8 -> tr s = TNone -> byte_pos s + n <= lenN (buf s) ->
  nthN bc (ip s + 3) = 0x42 -> nthN bc (ip s + 4) = opcode_at bc s -> ip s + 5 + 2 * n <= lenN bc ->
  host h (field_request bc s n) = (h', r) -> r_ok r = true ->
  let num x := number n (type_signed (opcode_at bc s)) x in
  exists s1 s2, interp host (step lm bc s) h = (SCont s1, h', [(field_request bc s n, r)]) /\
    interp host (step lm bc s1) h' =
      (if ((num (operand_at bc s 5 n) <=? num (processed s n r)) && (num (processed s n r) <=? num (operand_at bc s (5 + n) n)))%Z
       then SCont s2 else SHalt EValidation s2, h', []) /\
    ip s2 = ip s + 5 + 2 * n /\ buf s2 = buf s1 /\ position s2 = position s1.
Proof.
  intros WB WF HT B T HL HO HTY HI HH HR num.
  destruct (field_any host lm bc s h h' r n WB WF HT ltac:(lia) B T HL HH HR)
    as (s1 & X & M1 & I1 & C1 & B1 & E1 & W1 & L1 & V1 & _).
  exists s1, (set_ip s1 (ip s1 + 2 + 2 * n)). split; [exact X|].
  pose proof (range_int host lm bc WB s1 h' n) as Y.
  assert (HO1 : opcode_at bc s1 = 0x42) by (unfold opcode_at; now rewrite I1).
  assert (HTY1 : nthN bc (ip s1 + 1) = opcode_at bc s) by (rewrite I1; replace (ip s + 3 + 1) with (ip s + 4) by lia; auto).
  rewrite HTY1 in Y. specialize (Y HO1 W1 HT ltac:(lia) ltac:(lia)). cbv zeta in Y. rewrite Y.
  rewrite !(operand_shift bc s s1 3) by auto. rewrite C1, E1. replace (byte_pos s + n - n) with (byte_pos s) by lia. rewrite V1.
  replace (3 + 2) with 5 by lia. replace (3 + (2 + n)) with (5 + n) by lia.
  split; [reflexivity|]. cbn. split; [lia|]. auto.
Qed.
Lemma field_then_enum {H} (host : H -> request -> H * reply) lm bc s h h' r n :
  wf_bytes bc -> wf_bytes (buf s) -> type_bytes (opcode_at bc s) = Some n ->
  boff s < 8 -> tr s = TNone -> byte_pos s + n <= lenN (buf s) ->
  nthN bc (ip s + 3) = 0x4B -> nthN bc (ip s + 4) = opcode_at bc s ->
  let count := operand_at bc s 5 2 in ip s + 7 + count * n <= lenN bc ->
  host h (field_request bc s n) = (h', r) -> r_ok r = true ->
  let members := all_listed bc (ip s + 7) n count in
  exists s1 s2, interp host (step lm bc s) h = (SCont s1, h', [(field_request bc s n, r)]) /\
    buf s2 = buf s1 /\ position s2 = position s1 /\
    (In (processed s n r) members -> ip s2 = ip s + 7 + count * n /\ interp host (step lm bc s1) h' = (SCont s2, h', [])) /\
    (~ In (processed s n r) members -> interp host (step lm bc s1) h' = (SHalt EValidation s2, h', [])).
Proof.
  intros WB WF HT B T HL HO HTY count HI HH HR members.
  destruct (field_any host lm bc s h h' r n WB WF HT ltac:(lia) B T HL HH HR)
    as (s1 & X & M1 & I1 & C1 & B1 & E1 & W1 & L1 & V1 & _).
  pose proof (enum_int host lm bc WB s1 h' n) as Y.
  assert (HO1 : opcode_at bc s1 = 0x4B) by (unfold opcode_at; now rewrite I1).
  assert (HTY1 : nthN bc (ip s1 + 1) = opcode_at bc s) by (rewrite I1; replace (ip s + 3 + 1) with (ip s + 4) by lia; auto).
  assert (BP : byte_pos s1 = byte_pos s + n).
  { clear - B1 C1. unfold byte_pos in *. unfold position at 1. rewrite B1, C1. generalize ((position s + 7) / 8). intros. lia. }
  rewrite HTY1 in Y. rewrite (operand_shift bc s s1 3) in Y by auto. replace (3 + 2) with 5 in Y by lia.
  specialize (Y HO1 W1 ltac:(lia) HT ltac:(fold count; lia) ltac:(lia)). cbv zeta in Y. fold count in Y.
  rewrite BP, E1 in Y. replace (byte_pos s + n - n) with (byte_pos s) in Y by lia. rewrite V1 in Y.
  rewrite I1 in Y. replace (ip s + 3 + 4) with (ip s + 7) in Y by lia. fold members in Y.
  exists s1. destruct (existsb (N.eqb (processed s n r)) members) eqn:EX.
  - apply in_existsb in EX. eexists. split; [exact X|]. split; [|split; [|split; [intros _; split; [|exact Y]|now intros []]]].
    + reflexivity.
    + unfold position. cbn [cur set_ip set_boff set_cur boff]. lia.
    + reflexivity.
  - assert (NI : ~ In (processed s n r) members). { intros I. apply in_existsb in I. congruence. }
    eexists. split; [exact X|]. split; [|split; [|split; [easy|intros _; exact Y]]].
    + reflexivity.
    + unfold position. cbn [cur set_ip set_boff set_cur boff]. lia.
Qed.

(** Writing a constant, then reading the packet *)
Lemma val_operand bc s i n e : wf_bytes bc -> ip s + i + n <= lenN bc ->
  val_of e (bytes_of e (N.to_nat n) (operand_at bc s i n)) = operand_at bc s i n.
Proof.
  intros WB L. rewrite val_bytes, N2Nat.id. apply N.mod_small. unfold operand_at.
  pose proof (val_of_bound LE (sub bc (ip s + i) n) (wf_sub _ _ _ WB)) as V. rewrite lenN_sub in V by lia. exact V.
Qed.

Lemma emit_round_trip {H} (host : H -> request -> H * reply) lm bc s h n v rest s' h1 t :
  wf_bytes bc -> wf_bytes (buf s) -> opcode_at bc s = 0x65 -> md s = Enc ->
  type_bytes (nthN bc (ip s + 1)) = Some n -> ip s + 2 <= lenN bc ->
  stk s = v :: rest -> cur s + n <= lenN (buf s) -> v < 2 ^ 64 ->
  interp host (step lm bc s) h = (SCont s', h1, t) ->
  forall (H2 : Type) (host2 : H2 -> request -> H2 * reply) d g rest2,
  wf_bytes (buf d) -> md d = Dec -> ip d = ip s -> en d = en s -> cur d = cur s -> stk d = v :: rest2 ->
  cur s + n <= lenN (buf d) -> sub (buf d) (cur s) n = sub (buf s') (cur s) n ->
  let d1 := set_stk (set_ip d (ip s + 2)) rest2 in
  interp host2 (step lm bc d) g =
    (if v <? 2 ^ (8 * n) then SCont (set_cur d1 (cur s + n)) else SHalt EValidation d1, g, []).
Proof.
  intros WB WF HO M HT HI HS HC HV X H2 host2 d g rest2 WD MD ID ED CD SD LD SB d1.
  pose proof (emit_enc host lm bc WB s h n v rest HO M HT HI HS HC) as Y. rewrite X in Y. injection Y as Y1 _ _.
  assert (OD : opcode_at bc d = 0x65) by (unfold opcode_at in *; now rewrite ID).
  pose proof (emit_dec host2 lm bc WB d g n v rest2 OD MD WD) as Z. cbv zeta in Z. rewrite ID, CD, ED in Z.
  specialize (Z HT HI SD LD). rewrite Z, SB, Y1. cbn [buf].
  assert (LB : lenN (bytes_of (en s) (N.to_nat n) v) = n) by (rewrite lenN_bytes_of; lia).
  pose proof (sub_put_here (buf s) (cur s) (bytes_of (en s) (N.to_nat n) v) ltac:(lia)) as Q. rewrite LB in Q. rewrite Q, val_bytes, N2Nat.id.
  replace (256 ^ n) with (2 ^ (8 * n)) by (rewrite N.pow_mul_r; reflexivity).
  fold d1. assert (P : 2 ^ (8 * n) <> 0) by (apply N.pow_nonzero; lia).
  destruct (N.ltb_spec v (2 ^ (8 * n))).
  - rewrite N.mod_small by auto. now rewrite N.eqb_refl.
  - destruct (N.eqb_spec (v mod 2 ^ (8 * n)) v) as [E|]; [|reflexivity].
    pose proof (N.mod_lt v _ P). lia.
Qed.

Lemma const_field_encode {H} (host : H -> request -> H * reply) lm bc s h n :
  wf_bytes bc -> opcode_at bc s = 0x40 -> boff s < 8 -> md s = Enc ->
  type_bytes (nthN bc (ip s + 3)) = Some n -> ip s + 4 + n <= lenN bc -> byte_pos s + n <= lenN (buf s) ->
  exists s', interp host (step lm bc s) h = (SCont s', h, []) /\
    sub (buf s') (byte_pos s) n = bytes_of (en s) (N.to_nat n) (operand_at bc s 4 n) /\
    (forall i, i < byte_pos s \/ byte_pos s + n <= i -> nthN (buf s') i = nthN (buf s) i) /\
    lenN (buf s') = lenN (buf s) /\ position s' = 8 * (byte_pos s + n) /\ ip s' = ip s + 4 + n.
Proof.
  intros WB HO B M HT HI HL. eexists. split; [exact (const_check_enc host lm bc WB s h n HO B M HT HI HL)|].
  cbn [buf ip]. assert (LB : lenN (bytes_of (en s) (N.to_nat n) (operand_at bc s 4 n)) = n) by (rewrite lenN_bytes_of; lia).
  split. { pose proof (sub_put_here (buf s) (byte_pos s) (bytes_of (en s) (N.to_nat n) (operand_at bc s 4 n)) ltac:(lia)) as Q. rewrite LB in Q. exact Q. }
  split. { intros i Hi. rewrite nthN_put by lia. rewrite LB. destruct (N.leb_spec (byte_pos s) i), (N.ltb_spec i (byte_pos s + n)); cbn [andb]; auto; lia. }
  split; [apply lenN_put; lia|]. split; [|reflexivity]. unfold position. cbn [cur boff]. lia.
Qed.
Lemma const_write_encode {H} (host : H -> request -> H * reply) lm bc s h n :
  wf_bytes bc -> opcode_at bc s = 0x41 -> boff s < 8 ->
  type_bytes (nthN bc (ip s + 1)) = Some n -> type_signed (nthN bc (ip s + 1)) = false ->
  ip s + 2 + n <= lenN bc -> byte_pos s + n <= lenN (buf s) ->
  exists s', interp host (step lm bc s) h = (SCont s', h, []) /\
    sub (buf s') (byte_pos s) n = bytes_of (en s) (N.to_nat n) (operand_at bc s 2 n) /\
    (forall i, i < byte_pos s \/ byte_pos s + n <= i -> nthN (buf s') i = nthN (buf s) i) /\
    lenN (buf s') = lenN (buf s) /\ position s' = 8 * (byte_pos s + n) /\ ip s' = ip s + 2 + n.
Proof.
  intros WB HO B HT SG HI HL. eexists. split; [exact (const_write_any host lm bc WB s h n HO B HT SG HI HL)|].
  cbn [buf ip]. assert (LB : lenN (bytes_of (en s) (N.to_nat n) (operand_at bc s 2 n)) = n) by (rewrite lenN_bytes_of; lia).
  split. { pose proof (sub_put_here (buf s) (byte_pos s) (bytes_of (en s) (N.to_nat n) (operand_at bc s 2 n)) ltac:(lia)) as Q. rewrite LB in Q. exact Q. }
  split. { intros i Hi. rewrite nthN_put by lia. rewrite LB. destruct (N.leb_spec (byte_pos s) i), (N.ltb_spec i (byte_pos s + n)); cbn [andb]; auto; lia. }
  split; [apply lenN_put; lia|]. split; [|reflexivity]. unfold position. cbn [cur boff]. lia.
Qed.
Lemma const_field_decode {H} (host : H -> request -> H * reply) lm bc s h n :
  wf_bytes bc -> wf_bytes (buf s) -> opcode_at bc s = 0x40 -> boff s < 8 -> md s = Dec ->
  type_bytes (nthN bc (ip s + 3)) = Some n -> ip s + 4 + n <= lenN bc -> byte_pos s + n <= lenN (buf s) ->
  let c := operand_at bc s 4 n in
  let rq := ask (key_at bc s) (nthN bc (ip s + 3)) (cvar n c) HConst in
  (sub (buf s) (byte_pos s) n <> bytes_of (en s) (N.to_nat n) c ->
     exists s', interp host (step lm bc s) h = (SHalt EValidation s', h, [])) /\
  (sub (buf s) (byte_pos s) n = bytes_of (en s) (N.to_nat n) c -> forall h' r, host h rq = (h', r) -> r_ok r = true ->
     exists s', interp host (step lm bc s) h = (SCont s', h', [(rq, r)]) /\ buf s' = buf s /\
       position s' = 8 * (byte_pos s + n) /\ ip s' = ip s + 4 + n).
Proof.
  intros WB WF HO B M HT HI HL c rq.
  destruct (const_check_dec host lm bc WB s h n HO B M WF HT HI HL) as [X Y].
  assert (VB : forall l, lenN l = n -> wf_bytes l -> val_of (en s) l = c <-> l = bytes_of (en s) (N.to_nat n) c).
  { intros l L W. split.
    - intros <-. replace (N.to_nat n) with (length l) by (unfold lenN in L; lia). now rewrite bytes_val.
    - intros ->. now apply val_operand. }
  specialize (VB (sub (buf s) (byte_pos s) n) (lenN_sub _ _ _ HL) (wf_sub _ _ _ WF)). split.
  - intros NE. eexists. apply X. intros E. apply NE, VB, E.
  - intros E h' r HH HR. eexists. specialize (Y (proj2 VB E) h' r HH). rewrite Y, HR. split; [reflexivity|].
    split; [reflexivity|]. split; [|reflexivity]. unfold position. cbn [cur boff set_cur set_ip set_boff]. lia.
Qed.

Lemma sub_cons b p x l : sub b p (lenN (x :: l)) = x :: l -> p + lenN (x :: l) <= lenN b ->
  nthN b p = x /\ sub b (p + 1) (lenN l) = l.
Proof.
  intros E L. split.
  - pose proof (nthN_sub b p (lenN (x :: l)) 0 ltac:(rewrite lenN_cons; lia)) as X. rewrite E in X.
    rewrite N.add_0_r in X. exact (eq_sym X).
  - rewrite lenN_cons in L. apply nthN_ext; rewrite lenN_sub by lia; auto.
    intros i Hi. rewrite nthN_sub by auto.
    pose proof (nthN_sub b p (lenN (x :: l)) (i + 1) ltac:(rewrite lenN_cons; lia)) as X. rewrite E in X.
    replace (p + 1 + i) with (p + (i + 1)) by lia. rewrite <- X. clear. unfold nthN. replace (N.to_nat (i + 1)) with (S (N.to_nat i)) by lia. reflexivity.
Qed.
