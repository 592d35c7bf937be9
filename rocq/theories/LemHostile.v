(** Programs without jumps, run with any packet and any host. *)
From Coq Require Import ZifyBool ZifyNat ZifyN.
From Verif Require Import Base SpecBytes LemBase ModelWord ModelFloat ModelVM SpecVM LemAct LemRun LemField LemCheck LemTerm LemSafe LemSafety LemArr
  LemPlain SpecNames.
Ltac Zify.zify_post_hook ::= Z.div_mod_to_equations.

(** ** Instructions that go on behind themselves, and arrays *)
Definition tame_ops : list N :=
  [0x01; 0x02; 0x03; 0x04; 0x05; 0x07; 0x10; 0x11; 0x12; 0x13; 0x14; 0x15; 0x16; 0x17; 0x18; 0x19; 0x1A; 0x20; 0x21; 0x23; 0x24; 0x26; 0x30; 0x31; 0x32; 0x33;
   0x34; 0x35; 0x36; 0x37; 0x38; 0x39; 0x3A; 0x3B; 0x43; 0x44; 0x45; 0x46; 0x47; 0x48; 0x49; 0x4A].
Definition class_size (c : opclass) : N :=
  match c with
  | CEnterStruct | CInt _ | CFloat _ | CBool | CStrPre _ | CArrPre _ | CArrEof => 3
  | CSkip w => 1 + wbytes w
  | CAlignPad | CAlignFill => 2
  | CBitU | CBitI => 4
  | CStrNull | CArrDyn => 5
  | CArrFixed | CRaw => 7
  | CCrc w32 => if w32 then 14 else 8
  | CScale => 17
  | CTAdd | CTSub | CTMul | CTDiv => 9
  | _ => 1
  end.
Definition array_class (c : opclass) : bool := match c with CArrPre _ | CArrFixed | CArrEof | CArrDyn | CArrEnd => true | _ => false end.

Ltac each_op I := cbn [In tame_ops] in I; repeat (destruct I as [I|I]; [|]); try contradiction.
Lemma refs_size l : lenN (flat_map (le_bytes 2) l) = 2 * lenN l.
Proof. induction l as [|a l IH]; [reflexivity|]. cbn [flat_map]. rewrite lenN_app, lenN_cons, IH. change (lenN (le_bytes 2 a)) with 2. lia. Qed.
Lemma instr_size names i : well_formed names i -> In (opcode i) tame_ops -> lenN (instr_bytes i) = class_size (classify (opcode i)).
Proof.
  intros (_ & _ & AF & RF & _) I. unfold instr_bytes. rewrite lenN_cons, lenN_app, refs_size, RF. clear RF.
  each_op I; rewrite <- I in *; cbn [args_fit names_of classify class_size wbytes] in *; lia.
Qed.

Definition tame_class (c : opclass) : bool :=
  match c with
  | CEndian _ | CEnterStruct | CExitStruct | CSkip _ | CCrc _ | CScale | COptional | CTAdd | CTSub | CTMul | CTDiv | CInt _ | CBool | CFloat _ | CBitU | CBitI
  | CAlignPad | CAlignFill | CExitBit | CStrNull | CStrPre _ | CArrPre _ | CArrFixed | CArrEof | CArrDyn | CArrEnd | CRaw => true
  | _ => false
  end.
Lemma tame_classes op : In op tame_ops -> tame_class (classify op) = true.
Proof. intros I. each_op I; subst op; reflexivity. Qed.

Section Ops.
  Variables (lm : libm) (bc : list N).
  Ltac rs := unfold set_opt, set_cur, set_buf, set_boff, set_tr, set_stk, set_en, set_ip, dlen in *; cbn [ip loops] in *.
  Ltac lv1 :=
    match goal with
    | |- leaf _ _ (lift (fetch ?w _ _) _) => apply leaf_fetch; [rs; unfold wbytes in *; lia|intros ?]
    | |- leaf _ _ (lift _ _) => apply leaf_lift; intros ? ?
    | |- leaf _ _ (call _ _ _ _ _ _) => apply leaf_call; [exact I|intros ?]
    | |- leaf _ _ (Ask _ _) => intros ?
    | |- leaf _ _ (if ?x then _ else _) => destruct x eqn:?
    | |- leaf _ _ (match ?x with _ => _ end) => destruct x eqn:?
    | |- leaf _ _ (let _ := _ in _) => cbv zeta
    | |- leaf _ _ (Halt _ _) => exact I
    | |- leaf _ _ (Undef _) => exact I
    | |- leaf _ _ (Cont _) => cbn [leaf]; rs; split; [unfold wbytes in *; lia|reflexivity]
    end.
  Ltac lvs := repeat (cbv beta; lv1).

  Lemma exec_on op s (n := class_size (classify op)) : tame_class (classify op) = true -> array_class (classify op) = false -> ip s + (n - 1) <= lenN bc ->
    leaf (fun s' => ip s' = ip s + (n - 1) /\ loops s' = loops s) (fun _ => True) (exec_op lm bc op s).
  Proof.
    intros TC AC HN. unfold n in *. clear n. unfold exec_op.
    destruct (classify op); try discriminate TC; try discriminate AC; cbn [class_size] in *.
    all: try (lvs; fail).
    - destruct w32; unfold crc_op; cbv zeta; lvs.
    - unfold scale_lin. lvs.
    - unfold trans_int. lvs.
    - unfold trans_int. lvs.
    - unfold trans_int. lvs.
    - unfold trans_int. lvs.
    - unfold io_int, io_scalar. lvs.
    - unfold io_bool. lvs.
    - unfold io_float, io_scalar. lvs.
    - unfold io_bit_u, put_bits, get_bits. lvs.
    - unfold io_bit_i, put_bits, get_bits. lvs.
    - unfold align_pad, put_bits. lvs.
    - unfold align_fill, put_bits, get_bits. lvs.
    - unfold str_null. lvs.
    - unfold str_pre. lvs.
    - unfold raw_bytes. lvs.
  Qed.
End Ops.

(** ** Boundaries *)
Section Program.
  Variables (names : list (list N)) (is : list instr).
  Notation bc := (code is).
  Hypothesis WF : Forall (well_formed names) is.
  Hypothesis TM : forall i, In i is -> In (opcode i) tame_ops.
  Definition boundary (p : N) : Prop := exists a b, is = a ++ b /\ p = lenN (code a).

  Lemma code_app a b : code (a ++ b) = code a ++ code b. Proof. unfold code. apply flat_map_app. Qed.
  Lemma boundary_start : boundary 0. Proof. exists [], is. split; reflexivity. Qed.
  Lemma boundary_end : boundary (lenN bc). Proof. exists is, []. split; [now rewrite app_nil_r|reflexivity]. Qed.
  (** The instruction at a boundary *)
  Lemma boundary_at p : boundary p -> p < lenN bc -> exists i, In i is /\ nthN bc p = opcode i /\ p + lenN (instr_bytes i) <= lenN bc /\ boundary (p + lenN (instr_bytes i)).
  Proof.
    intros (a & b & E & ->) L. destruct b as [|i b]; [rewrite E, app_nil_r in L; lia|]. exists i. split; [rewrite E; apply in_or_app; right; now left|].
    assert (EB : bc = code a ++ instr_bytes i ++ code b) by (rewrite E, code_app; reflexivity). split; [|split].
    - rewrite EB. unfold nthN. rewrite app_nth2 by (unfold lenN; lia). unfold lenN. rewrite Nat2N.id, Nat.sub_diag. reflexivity.
    - rewrite EB, !lenN_app. lia.
    - exists (a ++ [i]), b. split; [rewrite E, <- app_assoc; reflexivity|]. rewrite code_app, lenN_app. unfold code at 3. cbn [flat_map]. rewrite app_nil_r. reflexivity.
  Qed.
  Lemma boundary_next p : boundary p -> p < lenN bc -> p + class_size (classify (nthN bc p)) <= lenN bc /\ boundary (p + class_size (classify (nthN bc p))) /\ In (nthN bc p) tame_ops.
  Proof.
    intros B L. destruct (boundary_at p B L) as (i & I & EO & LE & B'). rewrite EO. rewrite Forall_forall in WF. rewrite <- (instr_size names i) by auto. auto.
  Qed.
  (** The byte 0x38 is at boundaries only *)
  Definition ends_apart : Prop := forall i, In i is -> ~ In 0x38 (flat_map (le_bytes 2) (refs i) ++ args i).
  Lemma end_boundary : ends_apart -> forall p, p < lenN bc -> nthN bc p = 0x38 -> boundary p.
  Proof.
    intros EA. assert (G : forall b a p, is = a ++ b -> lenN (code a) <= p -> p < lenN bc -> nthN bc p = 0x38 -> boundary p).
    { induction b as [|i b IH]; intros a p E LA L X.
      - rewrite E, app_nil_r in L. lia.
      - assert (EB : bc = code a ++ instr_bytes i ++ code b) by (rewrite E, code_app; reflexivity).
        destruct (N.eq_dec p (lenN (code a))) as [->|NE]; [exists a, (i :: b); auto|].
        destruct (N.ltb_spec p (lenN (code a) + lenN (instr_bytes i))) as [LI|LI].
        + exfalso. apply (EA i); [rewrite E; apply in_or_app; right; now left|]. rewrite <- X, EB. unfold nthN.
          unfold instr_bytes in *. rewrite lenN_cons in LI. rewrite app_nth2 by (unfold lenN in *; lia). rewrite app_nth1 by (cbn [length]; unfold lenN in *; lia).
          replace (N.to_nat p - length (code a))%nat with (Datatypes.S (N.to_nat (p - lenN (code a) - 1))) by (unfold lenN in *; lia). cbn [nth]. apply nth_In. unfold lenN in *. lia.
        + apply (IH (a ++ [i]) p); auto; [now rewrite <- app_assoc|]. rewrite code_app, lenN_app. unfold code at 2. cbn [flat_map]. rewrite app_nil_r. exact LI. }
    intros p. apply (G is []); [reflexivity|cbn; lia].
  Qed.

  Lemma skip_found l : forall p d, d <> 0 -> l = skipn (N.to_nat p) bc -> p <= lenN bc ->
    let r := skip_scan l p d in r = lenN bc \/ (p < r <= lenN bc /\ nthN bc (r - 1) = 0x38).
  Proof.
    induction l as [|op l IH]; intros p d HD EL HP; cbn [skip_scan]; destruct (N.eqb_spec d 0); try contradiction.
    - left. assert (X : lenN (skipn (N.to_nat p) bc) = 0) by now rewrite <- EL. rewrite lenN_skipn in X. lia.
    - assert (NP : p < lenN bc).
      { assert (X : lenN (skipn (N.to_nat p) bc) = lenN (op :: l)) by now rewrite <- EL.
        rewrite lenN_skipn, lenN_cons in X. lia. }
      assert (NO : nthN bc p = op).
      { replace p with (p + 0) by lia. rewrite <- (nthN_skipn bc p 0). now rewrite <- EL. }
      assert (EL' : l = skipn (N.to_nat (p + 1)) bc).
      { replace (N.to_nat (p + 1)) with (1 + N.to_nat p)%nat by lia.
        clear - EL. revert EL. generalize (N.to_nat p). generalize bc. intros b k. revert b. induction k; intros b EL.
        - cbn [skipn] in EL. subst b. reflexivity.
        - destruct b; [discriminate|]. cbn [skipn] in EL. cbn [Nat.add skipn]. now apply IHk. }
      cbv zeta. set (d1 := if opens_loop op then d + 1 else d).
      destruct (N.eqb_spec op 0x38) as [E|NE].
      + destruct (N.eq_dec (d1 - 1) 0) as [Z|NZ].
        * rewrite Z. right. destruct l; cbn [skip_scan]; rewrite N.eqb_refl; (split; [lia|]);
            replace (p + 1 - 1) with p by lia; congruence.
        * destruct (IH (p + 1) (d1 - 1) NZ EL' ltac:(lia)) as [X|X]; [now left|right]. split; [lia|apply X].
      + destruct (IH (p + 1) d1 ltac:(unfold d1; destruct (opens_loop op); lia) EL' ltac:(lia)) as [X|X]; [now left|right].
        split; [lia|apply X].
  Qed.
  Lemma skip_boundary p : ends_apart -> p <= lenN bc -> boundary (skip_loop_body bc p).
  Proof.
    intros EA HP. destruct (skip_found _ p 1 ltac:(lia) eq_refl HP) as [X|[X Y]]; unfold skip_loop_body.
    - rewrite X. exact boundary_end.
    - set (r := skip_scan _ _ _) in *. assert (LR : r - 1 < lenN bc) by lia. destruct (boundary_next (r - 1) (end_boundary EA _ LR Y) LR) as (_ & B & _).
      rewrite Y in B. change (class_size (classify 0x38)) with 1 in B. now replace r with (r - 1 + 1) by lia.
  Qed.

  (** ** Every step leads from boundary to boundary *)
  Definition on (s : st) : Prop := boundary (ip s) /\ Forall (fun f => boundary (fst f)) (loops s).
  Hypothesis AR : ends_apart \/ forall i, In i is -> array_class (classify (opcode i)) = false.

  Variable lm : libm.
  Lemma enter_on s n : ends_apart -> on s -> ip s <= lenN bc -> leaf on (fun _ => True) (enter_array bc s n).
  Proof.
    intros EA [A B] HP. unfold enter_array. destruct (0 <? n).
    - assert (LP : forall b, leaf on (fun _ => True) (loop_push (set_buf s b) n)).
      { intros b. unfold loop_push, arr_push. destruct (_ <=? _); [exact I|]. destruct (_ <? _); cbn [lift leaf]; [|exact I].
        split; [exact A|]. cbn. constructor; [exact A|exact B]. }
      assert (LP' : leaf on (fun _ => True) (loop_push s n)) by (specialize (LP (buf s)); now destruct s).
      unfold try_bulk. destruct (n =? 0); [exact LP'|]. destruct (N.leb_spec (lenN bc) (ip s + 3)); [exact LP'|].
      rewrite !mem_eq. destruct (N.ltb_spec (ip s) (lenN bc)); [|lia]. destruct (N.ltb_spec (ip s + 3) (lenN bc)); [|lia].
      cbn [lift]. destruct (_ && _) eqn:EB; [|exact LP'].
      apply leaf_lift; intros k0 _. apply leaf_lift; intros k1 _. cbv zeta.
      destruct (dlen s <? cur s + n); [exact LP'|].
      apply leaf_lift; intros l _. intros r. apply leaf_lift; intros b' _.
      destruct (r_ok r); [|apply LP]. cbn [leaf]. split; [|exact B]. cbn [set_ip set_cur set_buf ip].
      apply andb_true_iff in EB. destruct EB as [E1 E2]. apply N.eqb_eq in E2.
      assert (W3 : boundary (ip s + 3)).
      { destruct (boundary_next (ip s) A ltac:(lia)) as (_ & X & _). apply orb_true_iff in E1. destruct E1 as [E1|E1]; apply N.eqb_eq in E1; rewrite E1 in X; exact X. }
      replace (ip s + 4) with (ip s + 3 + 1) by lia. destruct (boundary_next (ip s + 3) W3 ltac:(lia)) as (_ & X & _). rewrite E2 in X. exact X.
    - cbn [leaf]. split; [|exact B]. cbn [set_ip ip]. now apply skip_boundary.
  Qed.
  Lemma end_on s : on s -> leaf on (fun _ => True) (arr_end s).
  Proof.
    intros [A B]. unfold arr_end. destruct (loops s) as [|[b n] rest] eqn:EL; [exact I|].
    inversion B as [|x y B1 B2]; subst. cbn [fst] in B1.
    set (pr := if n =? eof_mark then _ else _).
    assert (X : ip (fst pr) = ip s /\ loops (fst pr) = (b, snd (hd (b, n) (loops (fst pr)))) :: rest).
    { unfold pr. destruct (n =? eof_mark); cbn; rewrite ?EL; auto. }
    destruct pr as [s1 again]. cbn [fst] in X. destruct X as [X1 X2]. destruct again.
    - cbn [leaf]. split; [exact B1|]. cbn [set_ip loops]. rewrite X2. constructor; [exact B1|exact B2].
    - apply leaf_call; [exact I|]. intros r. cbn [leaf]. split; [cbn; now rewrite X1|exact B2].
  Qed.
  Lemma array_on op s : array_class (classify op) = true -> tame_class (classify op) = true -> ends_apart -> ip s + (class_size (classify op) - 1) <= lenN bc ->
    boundary (ip s + (class_size (classify op) - 1)) -> Forall (fun f => boundary (fst f)) (loops s) -> leaf on (fun _ => True) (exec_op lm bc op s).
  Proof.
    intros AC TC EA HN B FL. unfold exec_op. destruct (classify op); try discriminate AC; cbn [class_size] in *.
    - unfold arr_pre. apply leaf_fetch; [cbn; lia|]. intros key. cbv zeta. 
      assert (O : forall b c, on (set_cur (set_buf (set_ip s (ip s + 2)) b) c)) by (intros; split; [exact B|exact FL]).
      repeat first [apply leaf_call; [exact I|intros ?] | apply leaf_lift; intros ? _ | match goal with |- leaf _ _ (if ?x then _ else _) => destruct x | |- leaf _ _ (match md _ with _ => _ end) => destruct (md _) | |- leaf _ _ (Halt _ _) => exact I | |- leaf _ _ (let _ := _ in _) => cbv zeta end];
        try (apply enter_on; [exact EA|split; [exact B|exact FL]|cbn; cbn in HN; lia]).
    - unfold arr_fixed. apply leaf_fetch; [cbn; lia|]. intros key. apply leaf_fetch; [cbn; lia|]. intros c. cbv zeta. apply leaf_call; [exact I|]. intros r.
      apply enter_on; [exact EA|split; [cbn; cbn in B; now replace (ip s + 2 + 4) with (ip s + 6) by lia|exact FL]|cbn; cbn in HN; lia].
    - unfold arr_eof. apply leaf_fetch; [cbn; lia|]. intros key. cbv zeta. destruct (_ <=? _); [exact I|]. unfold arr_push. destruct (_ <? _); cbn [lift]; [|exact I].
      cbn [dlen set_loops set_ip ip loops]. destruct (_ <=? _); cbn [leaf]; (split; [|cbn; constructor; [exact B|exact FL]]).
      + cbn [set_ip ip set_loops]. apply skip_boundary; [exact EA|cbn; cbn in HN; lia].
      + exact B.
    - unfold arr_dynamic. apply leaf_fetch; [cbn; lia|]. intros key. apply leaf_fetch; [cbn; lia|]. intros c. cbv zeta. apply leaf_call; [exact I|]. intros r.
      destruct (_ <? _); [exact I|]. apply leaf_call; [exact I|]. intros r'.
      apply enter_on; [exact EA|split; [cbn; cbn in B; now replace (ip s + 2 + 2) with (ip s + 4) by lia|exact FL]|cbn; cbn in HN; lia].
    - apply end_on. split; [|exact FL]. cbn in B. now rewrite N.add_0_r in B.
  Qed.

  Context {H : Type} (host : H -> request -> H * reply).
  Lemma step_on s h s' h' t : on s -> ip s < lenN bc -> interp host (step lm bc s) h = (SCont s', h', t) -> on s'.
  Proof.
    intros [A B] HI X. destruct (boundary_next _ A HI) as (HN & BN & IT). set (op := nthN bc (ip s)) in *. pose proof (tame_classes op IT) as TC.
    unfold step in X. rewrite mem_eq in X. destruct (N.ltb_spec (ip s) (lenN bc)); [|lia]. cbn [lift] in X. fold op in X.
    set (s1 := align op (set_ip s (ip s + 1))) in *.
    assert (S1 : ip s1 = ip s + 1 /\ loops s1 = loops s) by exact (align_same op (set_ip s (ip s + 1))). destruct S1 as [S1 S2].
    assert (SZ : 1 <= class_size (classify op)) by (destruct (classify op); cbn [class_size]; try destruct w32; lia).
    destruct (array_class (classify op)) eqn:AC.
    - assert (EA : ends_apart).
      { destruct AR as [EA|NA]; [exact EA|]. destruct (boundary_at _ A HI) as (i & I & EO & _). fold op in EO. rewrite EO, NA in AC by exact I. discriminate. }
      pose proof (array_on op s1 AC TC EA ltac:(lia) ltac:(rewrite S1; now replace (ip s + 1 + (class_size (classify op) - 1)) with (ip s + class_size (classify op)) by lia) ltac:(rewrite S2; exact B)) as LF.
      exact (interp_leaf host _ _ _ LF _ _ _ _ X).
    - pose proof (exec_on lm bc op s1 TC AC ltac:(lia)) as LF. pose proof (interp_leaf host _ _ _ LF _ _ _ _ X) as (Y1 & Y2). split; [|rewrite Y2, S2; exact B].
      rewrite Y1, S1. now replace (ip s + 1 + (class_size (classify op) - 1)) with (ip s + class_size (classify op)) by lia.
  Qed.
  Lemma reaches_on m data h s h' : reaches host lm bc (init m data) h s h' -> on s.
  Proof.
    intros R. remember (init m data) as s0 eqn:E. induction R as [s h|s h s1 h1 s2 h2 t R IH HI X].
    - subst. split; [apply boundary_start|constructor].
    - exact (step_on _ _ _ _ _ (IH E) HI X).
  Qed.

  (** ** What follows *)
  Lemma never_leaves m data h fuel o h' t : wf_bytes bc -> lenN bc < 2 ^ 62 -> wf_bytes data -> (m = Dec -> forall i, In i is -> opcode i <> 0x23) ->
    run host lm bc fuel (init m data) h = (o, h', t) ->
    (o <> Crash UData /\ o <> Crash UIl /\ o <> Crash UStack) /\ (forall rq r p l, In (rq, r) t -> rq_pl rq = PBuf p l -> p + lenN l <= lenN data).
  Proof.
    intros WB BL WD NP R.
    assert (OPS : forall s h1, reaches host lm bc (init m data) h s h1 -> ip s < lenN bc -> exists i, In i is /\ opcode_at bc s = opcode i).
    { intros s h1 RE HI. destruct (reaches_on _ _ _ _ _ RE) as [A _]. destruct (boundary_at _ A HI) as (i & I & EO & _). exists i. auto. }
    assert (D1 : during host lm bc (init m data) h (safe_at bc)).
    { intros s h1 RE HI. destruct (OPS s h1 RE HI) as (i & I & EO). pose proof (TM i I) as T. split; [|split].
      - intros (O & MD & _). assert (SN : sane (init m data)) by (repeat split; try exact WD; try constructor; cbn; lia).
        destruct (reaches_sane host lm bc WB BL _ _ _ _ SN RE) as (_ & _ & _ & M). rewrite MD in M. cbn in M. apply (NP (eq_sym M) i I). congruence.
      - intros (O & _). rewrite EO in O. rewrite O in T. each_op T; discriminate.
      - intros (O & _). rewrite EO in O. rewrite O in T. each_op T; discriminate. }
    assert (D2 : during host lm bc (init m data) h (fun s => ~ huge_table bc s)).
    { intros s h1 RE HI (O & _). destruct (OPS s h1 RE HI) as (i & I & EO). pose proof (TM i I) as T. rewrite EO in O. rewrite O in T. each_op T; discriminate. }
    destruct (packet_containment host lm bc BL WB m data h WD fuel o h' t D1 R) as (X1 & X2). split; [split; [exact X1|split]|exact X2].
    - exact (bytecode_containment host lm bc BL WB m data h WD fuel o h' t D2 R).
    - exact (no_stack_overrun host lm bc BL WB m data h WD fuel o h' t R).
  Qed.
End Program.
