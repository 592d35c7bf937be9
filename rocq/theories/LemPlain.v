(** Running a verified program. *)
From Verif Require Import Base SpecBytes LemBase ModelWord ModelFloat ModelVM SpecVM LemAct LemRun LemField LemCheck LemTerm LemSafety
  LemInstr SpecVerify LemVerify.
Ltac Zify.zify_post_hook ::= Z.div_mod_to_equations.

Lemma offset_number bc p : offset bc p = number 4 true (word bc p 4).
Proof.
  unfold offset, number. cbv zeta. change (2 ^ (8 * 4 - 1)) with (2 ^ 31). change (2 ^ (8 * Z.of_N 4))%Z with (2 ^ 32)%Z.
  change (2 ^ 31)%Z with (Z.of_N (2 ^ 31)). cbn [andb].
  destruct (Z.ltb_spec (Z.of_N (word bc p 4)) (Z.of_N (2 ^ 31))), (N.leb_spec (2 ^ 31) (word bc p 4)); lia.
Qed.

(** ** Leaves of an instruction: where it goes on, with which errors it stops *)
Fixpoint leaf (C : st -> Prop) (E : err -> Prop) (a : act) : Prop :=
  match a with Cont s => C s | Halt e _ => E e | Undef _ => True | Ask _ k => forall r, leaf C E (k r) end.
Lemma leaf_mono (C C' : st -> Prop) (E E' : err -> Prop) a :
  (forall s, C s -> C' s) -> (forall e, E e -> E' e) -> leaf C E a -> leaf C' E' a.
Proof. intros HC HE. induction a; cbn; auto. Qed.
Lemma leaf_lift {A} C E (x : result A) k : (forall v, x = Ok v -> leaf C E (k v)) -> leaf C E (lift x k).
Proof. intros HK. destruct x; cbn; auto. Qed.
Lemma leaf_fetch C E w bc p k : p + wbytes w <= lenN bc ->
  (forall v, leaf C E (k (v, p + wbytes w))) -> leaf C E (lift (fetch w bc p) k).
Proof.
  intros HP HK. rewrite fetch_ok. unfold fetchv. destruct (N.leb_spec (p + wbytes w) (lenN bc)); [|lia].
  cbn [lift]. apply HK.
Qed.
Lemma leaf_call C (E : err -> Prop) s key op p h k : E ECallback -> (forall r, leaf C E (k r)) -> leaf C E (call s key op p h k).
Proof. intros HE HK r. cbn. destruct (r_ok r); cbn; auto. Qed.
Lemma interp_leaf {H} (host : H -> request -> H * reply) C E a : leaf C E a -> forall h x h' t,
  interp host a h = (x, h', t) -> match x with SCont s => C s | SHalt e _ => E e | SUndef _ => True end.
Proof.
  induction a as [s|e s|u|rq k IH]; cbn [leaf interp]; intros HC h x h' t X; try (injection X as <- <- <-; auto; fail).
  destruct (host h rq) as [h1 r]. destruct (interp host (k r) h1) as [[y h2] t2] eqn:EI.
  injection X as <- <- <-. eapply IH; eauto.
Qed.

Lemma agreed_inv op : op < 256 -> agreed op = true ->
  match classify op with
  | CNop | CEndian _ | CExitStruct | COptional | CExitBit | CPop | CDup | CBin _ | CUn _ => size_of op = Some 1
  | CInt _ | CFloat _ | CBool | CBitBool | CStrPre _ | CArrPre _ => size_of op = Some 3
  | CAlignPad | CAlignFill => size_of op = Some 2
  | CStrNull => size_of op = Some 5
  | CRaw | CArrFixed => size_of op = Some 7
  | CSwitch => op = 0x51 | CSwitchTable => op = 0x53 | CJump => op = 0x52 | CJumpIfNot => op = 0x50
  | CArrEnd => op = 0x38
  | CPush => size_of op = Some 9
  | _ => False
  end.
Proof.
  intros H.
  assert (A : forallb (fun op => negb (agreed op) ||
    let n := match size_of op with Some n => n | None => 0 end in
    match classify op with
    | CNop | CEndian _ | CExitStruct | COptional | CExitBit | CPop | CDup | CBin _ | CUn _ => n =? 1
    | CInt _ | CFloat _ | CBool | CBitBool | CStrPre _ | CArrPre _ => n =? 3
    | CAlignPad | CAlignFill => n =? 2
    | CStrNull => n =? 5
    | CRaw | CArrFixed => n =? 7
    | CSwitch => op =? 0x51 | CSwitchTable => op =? 0x53 | CJump => op =? 0x52 | CJumpIfNot => op =? 0x50
    | CArrEnd => op =? 0x38
    | CPush => n =? 9
    | _ => false
    end) (map N.of_nat (seq 0 256)) = true) by (vm_compute; reflexivity).
  rewrite forallb_forall in A. specialize (A op).
  assert (HI : In op (map N.of_nat (seq 0 256))).
  { apply in_map_iff. exists (N.to_nat op). split; [lia|]. apply in_seq. lia. }
  specialize (A HI). intros AG. rewrite AG in A. cbn [negb orb] in A. cbv zeta in A.
  destruct (classify op); try discriminate; try (destruct (size_of op); [f_equal|discriminate]); lia.
Qed.

Lemma walks_snoc bc p q n : walks bc p q -> good_instr bc q n -> walks bc p (q + n).
Proof.
  induction 1 as [p|p m q G WK IH]; intros G'.
  - apply (walks_on _ _ n); [exact G'|constructor].
  - apply (walks_on _ _ m); [exact G|now apply IH].
Qed.

Definition straight (c : opclass) : bool :=
  match c with
  | CSwitch | CSwitchTable | CJump | CJumpIfNot | CArrEnd | CArrPre _ | CArrFixed => false
  | _ => true
  end.

Section Ops.
  Variables (lm : libm) (bc : list N).

  Ltac rs := unfold set_opt, set_cur, set_buf, set_boff, set_tr, set_stk, set_en, set_ip, dlen in *; cbn [ip loops] in *.
  Ltac lv1 :=
    match goal with
    | |- leaf _ _ (lift (fetch ?w _ _) _) => apply leaf_fetch; [rs; unfold wbytes in *; lia|intros ?]
    | |- leaf _ _ (lift _ _) => apply leaf_lift; intros ? ?
    | |- leaf _ _ (call _ _ _ _ _ _) => apply leaf_call; [discriminate|intros ?]
    | |- leaf _ _ (Ask _ _) => intros ?
    | |- leaf _ _ (if ?x then _ else _) => destruct x eqn:?
    | |- leaf _ _ (match ?x with _ => _ end) => destruct x eqn:?
    | |- leaf _ _ (let _ := _ in _) => cbv zeta
    | |- leaf _ _ (Halt _ _) => cbn [leaf]; discriminate
    | |- leaf _ _ (Undef _) => exact I
    | |- leaf _ _ (Cont _) => cbn [leaf]; rs; split; [unfold wbytes in *; lia|reflexivity]
    end.
  Ltac lvs := repeat (cbv beta; lv1).

  Lemma bin_eval_err o a b e : bin_eval lm o a b = AE e -> e <> EInvalidOp.
  Proof. destruct o; cbn; repeat (match goal with |- context [if ?c then _ else _] => destruct c end); try discriminate; intros X; injection X as <-; discriminate. Qed.
  Lemma un_eval_err o a e : un_eval lm o a = AE e -> e <> EInvalidOp.
  Proof.
    destruct o; cbn; repeat (match goal with |- context [if ?c then _ else _] => destruct c
      | |- context [match ?c with _ => _ end] => destruct c end); try discriminate; intros X; injection X as <-; discriminate.
  Qed.

  Lemma exec_straight op s n : op < 256 -> agreed op = true -> straight (classify op) = true ->
    size_of op = Some n -> ip s + (n - 1) <= lenN bc ->
    leaf (fun s' => ip s' = ip s + (n - 1) /\ loops s' = loops s) (fun e => e <> EInvalidOp) (exec_op lm bc op s).
  Proof.
    intros HO AG ST SZ HN. pose proof (agreed_inv op HO AG) as C. unfold exec_op.
    destruct (classify op); try discriminate ST; try contradiction C; rewrite SZ in C; injection C as ->.
    all: try (lvs; fail).
    - unfold io_int, io_scalar. lvs.
    - unfold io_bool. lvs.
    - unfold io_float, io_scalar. lvs.
    - unfold io_bit_bool, put_bits, get_bits. lvs.
    - unfold align_pad, put_bits. lvs.
    - unfold align_fill, put_bits, get_bits. lvs.
    - unfold str_null. lvs.
    - unfold str_pre. lvs.
    - unfold raw_bytes. lvs.
    - unfold push. lvs.
    - unfold pop. lvs.
    - unfold dup_op, push. lvs.
    - unfold bin_op, pop, push. lvs. cbn [leaf]. eapply bin_eval_err; eassumption.
    - unfold un_op, pop, push. lvs. cbn [leaf]. eapply un_eval_err; eassumption.
  Qed.

  Hypothesis WB : wf_bytes bc.
  Hypothesis BL : lenN bc < 2 ^ 32 - 32.
  Hypothesis GP : good_program bc.

  Lemma start_good p : walks bc 0 p -> p < lenN bc -> exists n, good_instr bc p n /\ walks bc 0 (p + n).
  Proof.
    intros WK HP. destruct GP as [l I]. destruct (instrs_walks bc 0 l I p WK) as [l' I'].
    inversion I' as [|p' n l2 G I2]; subst; [lia|]. exists n. split; [exact G|].
    eapply walks_snoc; eassumption.
  Qed.
  Lemma start_next p n : walks bc 0 p -> p < lenN bc -> size_of (nthN bc p) = Some n ->
    walks bc 0 (p + n) /\ p + n <= lenN bc.
  Proof.
    intros WK HP SZ. destruct (start_good p WK HP) as (m & G & WK'). destruct G as (X & Y & _).
    rewrite SZ in X. injection X as ->. auto.
  Qed.
  Lemma start_end : walks bc 0 (lenN bc).
  Proof.
    destruct GP as [l I]. clear - I. induction I as [|p n l G I IH]; [constructor|]. apply (walks_on _ _ n); [exact G|exact IH].
  Qed.
  Hypothesis PL : plain bc.

  Lemma skip_result l : forall p d, d <> 0 -> l = skipn (N.to_nat p) bc -> p <= lenN bc ->
    let r := skip_scan l p d in r = lenN bc \/ (p < r <= lenN bc /\ nthN bc (r - 1) = 0x38).
  Proof.
    induction l as [|op l IH]; intros p d HD EL HP; cbn [skip_scan]; destruct (N.eqb_spec d 0); try contradiction.
    - left. assert (X : lenN (skipn (N.to_nat p) bc) = 0) by now rewrite <- EL. rewrite lenN_skipn in X. lia.
    - assert (NP : p < lenN bc).
      { assert (X : lenN (skipn (N.to_nat p) bc) = lenN (op :: l)) by now rewrite <- EL.
        rewrite lenN_skipn, lenN_cons in X. lia. }
      assert (NO : nthN bc p = op).
      { replace p with (p + 0) by lia. rewrite <- (nthN_skipn bc p 0). now rewrite <- EL. }
      assert (EL' : l = skipn (N.to_nat (p + 1)) bc).
      { replace (N.to_nat (p + 1)) with (1 + N.to_nat p)%nat by lia.
        clear - EL. revert EL. generalize (N.to_nat p). intros k. revert bc. induction k; intros b EL.
        - cbn [skipn] in EL. subst b. reflexivity.
        - destruct b; [discriminate|]. cbn [skipn] in EL. cbn [Nat.add skipn]. now apply IHk. }
      cbv zeta. set (d1 := if opens_loop op then d + 1 else d).
      destruct (N.eqb_spec op 0x38) as [E|NE].
      + destruct (N.eq_dec (d1 - 1) 0) as [Z|NZ].
        * rewrite Z. right. destruct l; cbn [skip_scan]; rewrite N.eqb_refl; (split; [lia|]);
            replace (p + 1 - 1) with p by lia; congruence.
        * destruct (IH (p + 1) (d1 - 1) NZ EL' ltac:(lia)) as [X|X]; [now left|right]. split; [lia|apply X].
      + destruct (IH (p + 1) d1 ltac:(unfold d1; destruct (opens_loop op); lia) EL' ltac:(lia)) as [X|X]; [now left|right].
        split; [lia|apply X].
  Qed.
  Lemma skip_start p : p <= lenN bc -> walks bc 0 (skip_loop_body bc p).
  Proof.
    intros HP. destruct (skip_result _ p 1 ltac:(lia) eq_refl HP) as [X|[X Y]]; unfold skip_loop_body.
    - rewrite X. exact start_end.
    - set (r := skip_scan _ _ _) in *. pose proof (p_end bc PL (r - 1) ltac:(lia) Y) as WK.
      replace r with (r - 1 + 1) by lia. apply start_next; [exact WK|lia|]. now rewrite Y.
  Qed.

  (** The instruction pointer is at an instruction, and so are the starts of the open loops *)
  Definition on_code (s : st) : Prop := walks bc 0 (ip s) /\ Forall (fun f => walks bc 0 (fst f)) (loops s).

  Lemma enter_leaf s n : on_code s -> ip s <= lenN bc -> leaf on_code (fun e => e <> EInvalidOp) (enter_array bc s n).
  Proof.
    intros [A B] HP. unfold enter_array. destruct (0 <? n).
    - assert (LP : forall b, leaf on_code (fun e => e <> EInvalidOp) (loop_push (set_buf s b) n)).
      { intros b. unfold loop_push, arr_push. destruct (_ <=? _); [cbn; discriminate|]. destruct (_ <? _); cbn [lift leaf]; [|exact I].
        split; [exact A|]. cbn. constructor; [exact A|exact B]. }
      assert (LP' : leaf on_code (fun e => e <> EInvalidOp) (loop_push s n)) by (specialize (LP (buf s)); now destruct s).
      unfold try_bulk. destruct (n =? 0); [exact LP'|]. destruct (N.leb_spec (lenN bc) (ip s + 3)); [exact LP'|].
      rewrite !mem_eq. destruct (N.ltb_spec (ip s) (lenN bc)); [|lia]. destruct (N.ltb_spec (ip s + 3) (lenN bc)); [|lia].
      cbn [lift]. destruct (_ && _) eqn:EB; [|exact LP'].
      apply leaf_lift; intros k0 _. apply leaf_lift; intros k1 _. cbv zeta.
      destruct (dlen s <? cur s + n); [exact LP'|].
      apply leaf_lift; intros l _. intros r. apply leaf_lift; intros b' _.
      destruct (r_ok r); [|apply LP]. cbn [leaf]. split; [|exact B]. cbn [set_ip set_cur set_buf ip].
      apply andb_true_iff in EB. destruct EB as [E1 E2]. apply N.eqb_eq in E2.
      assert (W3 : walks bc 0 (ip s + 3) /\ ip s + 3 <= lenN bc).
      { apply start_next; [exact A|lia|]. apply orb_true_iff in E1. destruct E1 as [E1|E1]; apply N.eqb_eq in E1; now rewrite E1. }
      replace (ip s + 4) with (ip s + 3 + 1) by lia. apply start_next; [apply W3|lia|]. now rewrite E2.
    - cbn [leaf]. split; [|exact B]. cbn [set_ip ip]. now apply skip_start.
  Qed.

  Lemma exec_array op s n : op < 256 -> agreed op = true ->
    (match classify op with CArrPre _ | CArrFixed => true | _ => false end) = true ->
    size_of op = Some n -> ip s + (n - 1) <= lenN bc -> walks bc 0 (ip s + (n - 1)) ->
    Forall (fun f => walks bc 0 (fst f)) (loops s) ->
    leaf on_code (fun e => e <> EInvalidOp) (exec_op lm bc op s).
  Proof.
    intros HO AG ST SZ HN WK FL. pose proof (agreed_inv op HO AG) as C. unfold exec_op.
    destruct (classify op); try discriminate ST; rewrite SZ in C; injection C as ->.
    - unfold arr_pre. lvs.
      + apply enter_leaf; [split; [cbn; now replace (ip s + 2) with (ip s + (3 - 1)) by lia|exact FL]|cbn; lia].
      + apply enter_leaf; [split; [cbn; now replace (ip s + 2) with (ip s + (3 - 1)) by lia|exact FL]|cbn; lia].
    - unfold arr_fixed. lvs.
      apply enter_leaf; [split; [cbn; now replace (ip s + 2 + 4) with (ip s + (7 - 1)) by lia|exact FL]|cbn; lia].
  Qed.
  Lemma exec_end s : on_code s -> leaf on_code (fun e => e <> EInvalidOp \/ loops s = []) (arr_end s).
  Proof.
    intros [A B]. unfold arr_end. destruct (loops s) as [|[b n] rest] eqn:EL; [right; reflexivity|].
    inversion B as [|x y B1 B2]; subst. cbn [fst] in B1.
    set (pr := if n =? eof_mark then _ else _).
    assert (X : ip (fst pr) = ip s /\ loops (fst pr) = (b, snd (hd (b, n) (loops (fst pr)))) :: rest).
    { unfold pr. destruct (n =? eof_mark); cbn; rewrite ?EL; auto. }
    destruct pr as [s1 again]. cbn [fst] in X. destruct X as [X1 X2]. destruct again.
    - cbn [leaf]. split; [exact B1|]. cbn [set_ip loops]. rewrite X2. constructor; [exact B1|exact B2].
    - apply leaf_call; [left; discriminate|]. intros r. cbn [leaf]. split; [cbn; now rewrite X1|exact B2].
  Qed.
End Ops.

Lemma align_same op s : ip (align op s) = ip s /\ loops (align op s) = loops s.
Proof. unfold align. destruct (_ && _); split; reflexivity. Qed.

Section Runs.
  Context {H : Type} (host : H -> request -> H * reply) (lm : libm) (bc : list N).
  Hypothesis WB : wf_bytes bc.
  Hypothesis BL : lenN bc < 2 ^ 32 - 32.
  Hypothesis GP : good_program bc.

  (** A jump whose target the verifier has checked *)
  Lemma jumps_inside s base p : inside bc base p ->
    jumps bc s base (word bc p 4) = SCont (set_ip s (Z.to_N (Z.of_N base + offset bc p))).
  Proof. clear. 
    unfold inside, jumps. rewrite <- offset_number. cbv zeta. intros X.
    destruct (Z.leb_spec 0 (Z.of_N base + offset bc p)), (Z.leb_spec (Z.of_N base + offset bc p) (Z.of_N (lenN bc))); try lia.
    reflexivity.
  Qed.

  Lemma dispatch_in cases d x : dispatch cases d x = d \/ exists v, In (v, dispatch cases d x) cases.
  Proof.
    induction cases as [|[v tg] r IH]; cbn [dispatch]; [now left|].
    destruct (x =? v); [right; exists v; now left|]. destruct IH as [IH|[w IH]]; [now left|right; exists w; now right].
  Qed.

  Lemma control_step s h x h' t : walks bc 0 (ip s) -> ip s < lenN bc -> 0x50 <= opcode_at bc s <= 0x53 ->
    table_ahead bc (ip s) -> interp host (step lm bc s) h = (x, h', t) ->
    match x with
    | SCont s' => leads bc (ip s) (ip s') /\ ip s' <= lenN bc /\ loops s' = loops s
    | SHalt e _ => e = ECallback \/ e = EStackUnderflow
    | SUndef _ => False
    end.
  Proof.
    intros WK HI HO [TA1 TA2] X. destruct (start_good bc BL GP _ WK HI) as (n & (SZ & HN & GJ & GS & GT) & _).
    unfold opcode_at in HO.
    assert (C : nthN bc (ip s) = 0x50 \/ nthN bc (ip s) = 0x51 \/ nthN bc (ip s) = 0x52 \/ nthN bc (ip s) = 0x53) by lia.
    assert (OP4 : operand_at bc s 1 4 = word bc (ip s + 1) 4) by reflexivity.
    destruct C as [C|[C|[C|C]]].
    - (* JUMP_IF_NOT *)
      rewrite C in SZ. injection SZ as <-. pose proof (GJ (or_introl C)) as GI.
      revert X. enter_op C. unfold jump_if_not. enter_args.
      rewrite fetch_operand by (auto; cbn [wbytes]; lia). cbn [lift wbytes]. rewrite OP4.
      replace (ip s + 1 + 4) with (ip s + 5) by lia.
      unfold pop. cbn [stk set_ip]. destruct (stk s) as [|v r]; [cbn [interp]; intros X; injection X as <- <- <-; now right|].
      destruct (v =? 0).
      + rewrite jump_to_spec, jumps_inside by exact GI. intros X. injection X as <- <- <-. cbn [ip loops set_ip set_stk].
        split; [apply leads_jump; auto|]. split; [|reflexivity]. unfold inside in GI. lia.
      + cbn [interp]. intros X. injection X as <- <- <-. cbn [ip loops set_ip set_stk].
        split; [apply leads_on; auto|]. split; [lia|reflexivity].
    - (* SWITCH *)
      rewrite C in SZ. injection SZ as <-. pose proof (GS C) as (G1 & G2 & G3). specialize (TA1 (or_introl C)).
      assert (ET : table_at bc (ip s) = ip s + 7 + operand_at bc s 3 4).
      { unfold table_at. change (operand_at bc s 3 4) with (word bc (ip s + 3) 4). apply N.mod_small. lia. }
      destruct (host h (ask (key_at bc s) 0x06 (cvar 8 0) HQuery)) as [h1 r] eqn:EH.
      destruct (r_ok r) eqn:ER.
      + pose proof (switch_list host lm bc WB s h h1 r C) as SL. cbv zeta in SL.
        rewrite <- ET in SL. specialize (SL ltac:(lia)). specialize (SL G1 EH ER). rewrite SL in X. clear SL.
        set (t0 := table_at bc (ip s)) in *.
        assert (D : exists p, inside bc (ip s + 7) p /\
          dispatch (case_list bc (t0 + 6) (val_of LE (sub bc t0 2))) (val_of LE (sub bc (t0 + 2) 4)) (answer 8 0 r) = word bc p 4 /\
          leads bc (ip s) (target bc (ip s + 7) p)).
        { destruct (dispatch_in (case_list bc (t0 + 6) (val_of LE (sub bc t0 2))) (val_of LE (sub bc (t0 + 2) 4)) (answer 8 0 r)) as [D|[v D]].
          - exists (t0 + 2). split; [exact G2|]. split; [exact D|]. now apply leads_default.
          - apply in_map_iff in D. destruct D as (i & D1 & D2). apply in_seq in D2. apply (f_equal snd) in D1; unfold case_at in D1; cbn [snd] in D1.
            assert (LI : N.of_nat i < word bc t0 2) by (unfold word; lia).
            exists (t0 + 6 + 12 * N.of_nat i + 8). split; [now apply G3|]. split; [|now apply leads_case].
            rewrite <- D1. unfold word. do 2 f_equal. lia. }
        destruct D as (p & D1 & D2 & D3). rewrite D2, jumps_inside in X by exact D1. injection X as <- <- <-.
        cbn [ip loops set_ip]. split; [exact D3|]. split; [|reflexivity]. unfold inside in D1. lia.
      + revert X. enter_op C. unfold switch_op. enter_args.
        rewrite key_eq by (auto; lia). cbn [lift]. rewrite fetch_operand by (auto; cbn [wbytes]; lia). cbn [lift wbytes].
        replace (ip s + 3 + 4) with (ip s + 7) by lia. rewrite <- ET.
        destruct (N.ltb_spec (lenN bc) (table_at bc (ip s))); [lia|].
        rewrite fetch_at by (auto; cbn [wbytes]; lia). cbn [lift wbytes].
        rewrite fetch_at by (auto; cbn [wbytes]; lia). cbn [lift wbytes].
        unfold call. cbn [interp]. fold (ask (key_at bc s) 0x06 (cvar 8 0) HQuery).
        change {| rq_key := key_at bc s; rq_op := 6; rq_pl := PInt W8 0; rq_how := HQuery |} with (ask (key_at bc s) 0x06 (cvar 8 0) HQuery).
        rewrite EH, ER. cbn [interp]. intros X. injection X as <- <- <-. now left.
    - (* JUMP *)
      rewrite C in SZ. injection SZ as <-. pose proof (GJ (or_intror C)) as GI.
      revert X. enter_op C. unfold jump_op. enter_args.
      rewrite fetch_operand by (auto; cbn [wbytes]; lia). cbn [lift wbytes]. rewrite OP4.
      replace (ip s + 1 + 4) with (ip s + 5) by lia.
      rewrite jump_to_spec, jumps_inside by exact GI. intros X. injection X as <- <- <-. cbn [ip loops set_ip set_stk].
      split; [apply leads_jump; auto|]. split; [|reflexivity]. unfold inside in GI. lia.
    - (* SWITCH_TABLE *)
      rewrite C in SZ. injection SZ as <-. pose proof (GT C) as (G1 & G2 & G3 & G4). specialize (TA1 (or_intror C)). specialize (TA2 C).
      destruct G4 as [G4|[G4 G5]]; [contradiction|].
      assert (ET : table_at bc (ip s) = ip s + 7 + operand_at bc s 3 4).
      { unfold table_at. change (operand_at bc s 3 4) with (word bc (ip s + 3) 4). apply N.mod_small. lia. }
      destruct (host h (ask (key_at bc s) 0x06 (cvar 8 0) HQuery)) as [h1 r] eqn:EH.
      destruct (r_ok r) eqn:ER.
      + pose proof (switch_dense host lm bc WB s h h1 r C ltac:(lia)) as SL. cbv zeta in SL.
        rewrite <- ET in SL. specialize (SL G1 ltac:(lia) G4 EH ER). rewrite SL in X. clear SL.
        set (t0 := table_at bc (ip s)) in *. fold (word bc t0 8) (word bc (t0 + 8) 8) in X.
        set (cs := dense_list bc (t0 + 20) (word bc t0 8) (word bc (t0 + 8) 8 - word bc t0 8 + 1)) in *.
        assert (D : exists p, inside bc (ip s + 7) p /\
          dispatch cs (val_of LE (sub bc (t0 + 16) 4)) (answer 8 0 r) = word bc p 4 /\
          leads bc (ip s) (target bc (ip s + 7) p)).
        { destruct (dispatch_in cs (val_of LE (sub bc (t0 + 16) 4)) (answer 8 0 r)) as [D|[v D]].
          - exists (t0 + 16). split; [exact G2|]. split; [exact D|]. now apply leads_table_default.
          - apply in_map_iff in D. destruct D as (i & D1 & D2). apply in_seq in D2. apply (f_equal snd) in D1; unfold case_at in D1; cbn [snd] in D1.
            assert (LI : word bc t0 8 <= word bc t0 8 + N.of_nat i <= word bc (t0 + 8) 8) by lia.
            exists (t0 + 20 + 4 * (word bc t0 8 + N.of_nat i - word bc t0 8)).
            split; [now apply G5|]. split; [|now apply leads_entry].
            rewrite <- D1. unfold word at 1. do 2 f_equal. lia. }
        destruct D as (p & D1 & D2 & D3). rewrite D2, jumps_inside in X by exact D1. injection X as <- <- <-.
        cbn [ip loops set_ip]. split; [exact D3|]. split; [|reflexivity]. unfold inside in D1. lia.
      + revert X. enter_op C. unfold switch_table. enter_args.
        rewrite key_eq by (auto; lia). cbn [lift]. rewrite fetch_operand by (auto; cbn [wbytes]; lia). cbn [lift wbytes].
        replace (ip s + 3 + 4) with (ip s + 7) by lia. rewrite <- ET.
        destruct (N.ltb_spec (lenN bc) (table_at bc (ip s))); [lia|].
        destruct (N.ltb_spec (lenN bc) (table_at bc (ip s) + 20)); [lia|]. cbn [orb].
        do 3 (rewrite fetch_at by (auto; cbn [wbytes]; lia); cbn [lift wbytes]).
        unfold call. cbn [interp].
        change {| rq_key := key_at bc s; rq_op := 6; rq_pl := PInt W8 0; rq_how := HQuery |} with (ask (key_at bc s) 0x06 (cvar 8 0) HQuery).
        rewrite EH, ER. cbn [interp]. intros X. injection X as <- <- <-. now left.
  Qed.

  Hypothesis PL : plain bc.

  (** One instruction of a verified plain program *)
  Lemma plain_step s h x h' t : on_code bc s -> ip s < lenN bc -> interp host (step lm bc s) h = (x, h', t) ->
    match x with
    | SCont s' => on_code bc s'
    | SHalt e _ => (e = EInvalidOp -> opcode_at bc s = 0x38 /\ loops s = []) /\
                   (0x50 <= opcode_at bc s <= 0x53 -> e <> EOob)
    | SUndef _ => True
    end.
  Proof.
    intros [A B] HI X. pose proof (p_agreed bc PL _ A HI) as AG.
    destruct (start_good bc BL GP _ A HI) as (n & (SZ & HN & _) & WN).
    pose proof (size_of_bound _ _ SZ) as NB.
    pose proof (wf_nthN bc (ip s) WB) as HB.
    destruct ((0x50 <=? opcode_at bc s) && (opcode_at bc s <=? 0x53)) eqn:EJ.
    { pose proof (control_step s h x h' t A HI ltac:(lia) (p_tables bc PL _ A HI) X) as Y. destruct x as [s'|e s'|u]; [| |exact I].
      - destruct Y as (Y1 & Y2 & Y3). split; [exact (p_leads bc PL _ _ A HI Y1)|]. now rewrite Y3.
      - destruct Y as [-> | ->]; (split; [discriminate|discriminate]). }
    fold (opcode_at bc s) in *. set (op := opcode_at bc s) in *.
    pose proof (agreed_inv op HB AG) as IV.
    unfold step in X. rewrite mem_eq in X. destruct (N.ltb_spec (ip s) (lenN bc)); [|lia]. cbn [lift] in X.
    fold (opcode_at bc s) in X. fold op in X.
    set (s1 := align op (set_ip s (ip s + 1))) in *.
    assert (S1 : ip s1 = ip s + 1 /\ loops s1 = loops s) by exact (align_same op (set_ip s (ip s + 1))).
    destruct S1 as [S1 S2].
    destruct (straight (classify op)) eqn:ST.
    - pose proof (exec_straight lm bc op s1 n HB AG ST SZ ltac:(lia)) as LF.
      pose proof (interp_leaf host _ _ _ LF _ _ _ _ X) as Y. destruct x as [s'|e s'|u]; [| |exact I].
      + destruct Y as [Y1 Y2]. split; [|rewrite Y2, S2; exact B]. rewrite Y1, S1.
        replace (ip s + 1 + (n - 1)) with (ip s + n) by lia. exact WN.
      + split; [intros ->; contradiction|]. lia.
    - destruct (match classify op with CArrPre _ | CArrFixed => true | _ => false end) eqn:SA.
      + pose proof (exec_array lm bc BL GP PL op s1 n HB AG SA SZ ltac:(lia)
          ltac:(rewrite S1; replace (ip s + 1 + (n - 1)) with (ip s + n) by lia; exact WN) ltac:(rewrite S2; exact B)) as LF.
        pose proof (interp_leaf host _ _ _ LF _ _ _ _ X) as Y. destruct x as [s'|e s'|u]; [exact Y| |exact I].
        split; [intros ->; contradiction|]. lia.
      + destruct (classify op) eqn:EC; try discriminate ST; try discriminate SA; try (rewrite IV in EJ; discriminate EJ).
        assert (EX : exec_op lm bc op s1 = arr_end s1) by (unfold exec_op; now rewrite EC).
        rewrite EX in X. rewrite IV in SZ. injection SZ as <-.
        pose proof (exec_end bc s1 ltac:(split; [now rewrite S1|now rewrite S2])) as LF.
        pose proof (interp_leaf host _ _ _ LF _ _ _ _ X) as Y. destruct x as [s'|e s'|u]; [exact Y| |exact I].
        split; [|lia]. intros ->. split; [exact IV|]. destruct Y as [Y|Y]; [contradiction|]. now rewrite <- S2.
  Qed.

  Lemma plain_on_code m data h s h' : reaches host lm bc (init m data) h s h' -> on_code bc s.
  Proof.
    intros R. remember (init m data) as s0 eqn:E. induction R as [s h|s h s1 h1 s2 h2 t R IH HI X].
    - subst. split; constructor.
    - exact (plain_step _ _ _ _ _ (IH E) HI X).
  Qed.
  Lemma plain_containment m data h fuel o h' t : wf_bytes data -> run host lm bc fuel (init m data) h = (o, h', t) -> o <> Crash UIl.
  Proof.
    intros WD. apply bytecode_containment; auto; [lia|]. intros s h1 R HI [HO HT].
    destruct (plain_on_code _ _ _ _ _ R) as [A _].
    destruct (start_good bc BL GP _ A HI) as (n & (SZ & HN & _ & _ & GT) & _). destruct (GT HO) as (G1 & G2 & G3 & G4).
    destruct (p_tables bc PL _ A HI) as [TA1 TA2]. specialize (TA1 (or_intror HO)). specialize (TA2 HO).
    destruct G4 as [G4|[G4 _]]; [contradiction|].
    assert (ET : table_at bc (ip s) = ip s + 7 + operand_at bc s 3 4).
    { unfold table_at. change (operand_at bc s 3 4) with (word bc (ip s + 3) 4). apply N.mod_small. lia. }
    cbv zeta in HT. rewrite <- ET in HT. unfold word in G4. lia.
  Qed.
End Runs.

(** ** Deciding [plain] *)
Fixpoint starts (fuel : nat) (bc : list N) (p : N) : list N :=
  match fuel with
  | O => []
  | S f => p :: if p <? lenN bc then match size_of (nthN bc p) with Some n => starts f bc (p + n) | None => [] end else []
  end.
Definition upto (n : N) : list N := map N.of_nat (seq 0 (N.to_nat n)).
Definition dests (bc : list N) (p : N) : list N :=
  let op := nthN bc p in let t := table_at bc p in
  if op =? 0x50 then [target bc (p + 5) (p + 1); p + 5]
  else if op =? 0x52 then [target bc (p + 5) (p + 1)]
  else if op =? 0x51 then
    target bc (p + 7) (t + 2) :: map (fun i => target bc (p + 7) (t + 6 + 12 * i + 8)) (upto (word bc t 2))
  else if op =? 0x53 then
    target bc (p + 7) (t + 16) ::
      map (fun i => target bc (p + 7) (t + 20 + 4 * i)) (upto (word bc (t + 8) 8 - word bc t 8 + 1))
  else [].
Definition memb (x : N) (l : list N) : bool := existsb (N.eqb x) l.
Definition plainb (bc : list N) : bool :=
  let l := starts (S (length bc)) bc 0 in
  forallb (fun p => (lenN bc <=? p) || (agreed (nthN bc p)
    && (negb ((nthN bc p =? 0x51) || (nthN bc p =? 0x53)) || (p + 7 + word bc (p + 3) 4 <=? lenN bc))
    && (if nthN bc p =? 0x53 then negb (word bc (table_at bc p + 8) 8 - word bc (table_at bc p) 8 =? 2 ^ 64 - 1) else true)
    && forallb (fun q => memb q l) (dests bc p))) l
  && forallb (fun i => negb (nthN bc i =? 0x38) || memb i l) (upto (lenN bc)).

Lemma memb_In x l : memb x l = true <-> In x l.
Proof.
  unfold memb. rewrite existsb_exists. split; [intros (y & A & B); apply N.eqb_eq in B; now subst|].
  intros A. exists x. now rewrite N.eqb_refl.
Qed.
Lemma In_upto i n : In i (upto n) <-> i < n.
Proof.
  unfold upto. rewrite in_map_iff. split.
  - intros (k & <- & A). apply in_seq in A. lia.
  - intros A. exists (N.to_nat i). split; [lia|]. apply in_seq. lia.
Qed.

Section Decide.
  Variable bc : list N.
  Hypothesis BL : lenN bc < 2 ^ 32 - 32.
  Hypothesis GP : good_program bc.

  Lemma walks_le p q : walks bc p q -> p <= q.
  Proof. induction 1 as [|p n q G WK IH]; [lia|]. lia. Qed.
  Lemma walks_starts p q : walks bc p q -> forall fuel, q - p < N.of_nat fuel -> In q (starts fuel bc p).
  Proof.
    induction 1 as [p|p n q G WK IH]; intros fuel HF; (destruct fuel; [lia|]); cbn [starts]; [now left|].
    right. destruct G as (SZ & HN & _). pose proof (size_of_bound _ _ SZ). pose proof (walks_le _ _ WK).
    destruct (N.ltb_spec p (lenN bc)); [|lia]. rewrite SZ. apply IH. lia.
  Qed.
  Lemma walks_end q : walks bc 0 q -> q <= lenN bc.
  Proof.
    intros WK. destruct GP as [l I]. destruct (instrs_walks _ _ _ I _ WK) as [l' I']. eapply instrs_le; exact I'.
  Qed.
  Lemma starts_walks q : forall fuel p, walks bc 0 p -> In q (starts fuel bc p) -> walks bc 0 q.
  Proof.
    induction fuel as [|fuel IH]; intros p WK HI; [destruct HI|]. cbn [starts] in HI. destruct HI as [<-|HI]; [exact WK|].
    destruct (N.ltb_spec p (lenN bc)); [|destruct HI]. destruct (size_of (nthN bc p)) as [n|] eqn:SZ; [|destruct HI].
    apply (IH (p + n)); [|exact HI]. eapply start_next; eassumption.
  Qed.
  Lemma leads_dests p q : leads bc p q -> In q (dests bc p).
  Proof.
    unfold dests. intros L. destruct L as [E|E|E|i E I|E|i E I].
    - destruct E as [E|E]; rewrite E; cbn; auto.
    - rewrite E. cbn; auto.
    - rewrite E. cbn [N.eqb Pos.eqb]. now left.
    - rewrite E. cbn [N.eqb Pos.eqb]. right. apply in_map_iff. exists i. split; [reflexivity|]. now apply In_upto.
    - rewrite E. cbn [N.eqb Pos.eqb]. now left.
    - rewrite E. cbn [N.eqb Pos.eqb]. right. apply in_map_iff. exists (i - word bc (table_at bc p) 8).
      split; [reflexivity|]. apply In_upto. lia.
  Qed.
  Lemma plainb_plain : plainb bc = true -> plain bc.
  Proof.
    unfold plainb. cbv zeta. set (l := starts (S (length bc)) bc 0). intros X. apply andb_true_iff in X. destruct X as [X1 X2].
    rewrite forallb_forall in X1, X2.
    assert (WL : forall p, walks bc 0 p -> In p l).
    { intros p WK. apply walks_starts; [exact WK|]. pose proof (walks_end _ WK). unfold lenN in *. lia. }
    assert (LW : forall p, In p l -> walks bc 0 p) by (intros p; apply starts_walks; constructor).
    assert (X : forall p, walks bc 0 p -> p < lenN bc -> _) by (intros p WK HP; exact (X1 p (WL p WK))). clear X1.
    assert (X1 : forall p, walks bc 0 p -> p < lenN bc -> (agreed (nthN bc p)
      && (negb ((nthN bc p =? 0x51) || (nthN bc p =? 0x53)) || (p + 7 + word bc (p + 3) 4 <=? lenN bc))
      && (if nthN bc p =? 0x53 then negb (word bc (table_at bc p + 8) 8 - word bc (table_at bc p) 8 =? 2 ^ 64 - 1) else true)
      && forallb (fun q => memb q l) (dests bc p)) = true).
    { intros p WK HP. specialize (X p WK HP). apply orb_true_iff in X. destruct X as [X|X]; [lia|exact X]. }
    clear X.
    split.
    - intros p WK HP. specialize (X1 p WK HP). rewrite !andb_true_iff in X1. tauto.
    - intros p WK HP. specialize (X1 p WK HP). rewrite !andb_true_iff in X1. destruct X1 as (((_ & Y) & Z) & _). split.
      + intros D. apply orb_true_iff in Y. destruct Y as [Y|Y]; [|lia]. apply negb_true_iff in Y. lia.
      + intros D F. rewrite D in Z. cbn [N.eqb Pos.eqb] in Z. apply negb_true_iff in Z.
        unfold full_range in F. apply N.eqb_neq in Z. contradiction.
    - intros p q WK HP L. specialize (X1 p WK HP). rewrite !andb_true_iff in X1. destruct X1 as (_ & Y).
      rewrite forallb_forall in Y. apply LW. apply memb_In. apply Y. now apply leads_dests.
    - intros p HP E. specialize (X2 p). rewrite In_upto in X2. specialize (X2 HP). rewrite E in X2. cbn [N.eqb Pos.eqb negb orb] in X2.
      apply LW. now apply memb_In.
  Qed.
End Decide.
