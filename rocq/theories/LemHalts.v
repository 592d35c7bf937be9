(** Programs without jumps whose loops take bytes, run with any packet and any host, come to an end. *)
From Coq Require Import ZifyBool ZifyNat ZifyN.
From Verif Require Import Base SpecBytes LemBase ModelWord ModelFloat ModelVM SpecVM LemAct LemRun LemField LemCheck LemTerm LemSafe LemSafety LemArr
  LemPlain SpecNames LemHostile.
Ltac Zify.zify_post_hook ::= Z.div_mod_to_equations.
Local Open Scope N_scope.

Definition takes (c : opclass) : bool := match c with CInt _ | CBool | CFloat _ | CStrNull | CStrPre _ => true | _ => false end.
Definition opens_array (c : opclass) : bool := match c with CArrPre _ | CArrFixed | CArrEof | CArrDyn => true | _ => false end.
Lemma takes_aligns op : takes (classify op) = true -> In op tame_ops -> aligns op = true /\ array_class (classify op) = false.
Proof. intros T I. each_op I; subst op; try discriminate T; split; reflexivity. Qed.

(** Before the first array a field that takes at least a byte *)
Definition straight (i : instr) : Prop := array_class (classify (opcode i)) = false.
Definition lead (b : list instr) : Prop := exists pre c rest, b = pre ++ c :: rest /\ Forall straight pre /\ takes (classify (opcode c)) = true.
Definition good (l : list instr) : Prop := forall a i b, l = a ++ i :: b -> opens_array (classify (opcode i)) = true -> lead b.

Section Ops.
  Variables (lm : libm) (bc : list N).
  Ltac rs := unfold set_opt, set_cur, set_buf, set_boff, set_tr, set_stk, set_en, set_ip, set_loops, dlen in *; cbn [ip loops opt cur boff] in *.
  Ltac lv1 :=
    match goal with
    | |- leaf _ _ (lift _ _) => apply leaf_lift; intros ? ?
    | |- leaf _ _ (call _ _ _ _ _ _) => apply leaf_call; [exact Logic.I|intros ?]
    | |- leaf _ _ (Ask _ _) => intros ?
    | |- leaf _ _ (let (_, _) := ?x in _) => destruct x
    | |- leaf _ _ (if ?x then _ else _) => destruct x eqn:?
    | |- leaf _ _ (match ?x with _ => _ end) => destruct x eqn:?
    | |- leaf _ _ (let _ := _ in _) => cbv zeta
    | |- leaf _ _ (Halt _ _) => exact Logic.I
    | |- leaf _ _ (Undef _) => exact Logic.I
    end.
  Ltac lvs := repeat (cbv beta; lv1).

  (** The mark for optional fields is not set but by its instruction *)
  Definition plainly (s : st) : Prop := opt s = false.
  Ltac done := cbn [leaf]; unfold plainly in *; rs; first [assumption|reflexivity|congruence].
  Lemma push_plainly s n : plainly s -> leaf plainly (fun _ => True) (loop_push s n).
  Proof. intros P. unfold loop_push. lvs; done. Qed.
  Lemma enter_plainly s n : plainly s -> leaf plainly (fun _ => True) (enter_array bc s n).
  Proof.
    intros P. unfold enter_array. destruct (0 <? n); [|done]. unfold try_bulk. lvs; try (apply push_plainly; done). all: done.
  Qed.
  Lemma end_plainly s : plainly s -> leaf plainly (fun _ => True) (arr_end s).
  Proof.
    intros P. unfold arr_end. destruct (loops s) as [|[b n] rest]; [exact Logic.I|]. destruct (n =? eof_mark); cbv zeta; lvs; done.
  Qed.
  Lemma exec_plainly op s : tame_class (classify op) = true -> op <> 0x4A -> In op tame_ops -> plainly s -> leaf plainly (fun _ => True) (exec_op lm bc op s).
  Proof.
    intros TC NO I P. assert (NC : classify op <> COptional) by (clear - NO I; each_op I; subst op; try discriminate; contradiction).
    unfold exec_op. destruct (classify op); try discriminate TC; try contradiction.
    all: unfold crc_op, scale_lin, trans_int, io_int, io_bool, io_float, io_scalar, io_bit_u, io_bit_i, put_bits, get_bits, align_pad, align_fill, str_null, str_pre, raw_bytes, arr_pre, arr_fixed, arr_eof, arr_dynamic, put_bits, get_bits; cbv zeta.
    all: try (apply end_plainly; exact P); lvs; try (apply enter_plainly); try done.
  Qed.

  (** A field takes at least a byte *)
  Lemma exec_takes op s : takes (classify op) = true -> plainly s -> leaf (fun s' => cur s < cur s' /\ boff s' = boff s) (fun _ => True) (exec_op lm bc op s).
  Proof.
    assert (WP : forall w, 1 <= wbytes w) by (intros []; cbn; lia).
    intros T P. unfold plainly in P. unfold exec_op. destruct (classify op); try discriminate T;
      unfold io_int, io_bool, io_float, io_scalar, str_null, str_pre; cbv zeta; lvs; cbn [leaf]; rs; try congruence; (split; [|reflexivity]).
    all: try (match goal with |- context [wbytes ?w] => pose proof (WP w) end); lia.
  Qed.

  (** What holds of the place behind an array's head holds of every place where a loop starts *)
  Section Frames.
    Variable Q : N -> Prop.
    Definition frames (s : st) : Prop := Forall (fun f => Q (fst f)) (loops s).
    Lemma enter_frames s n : Q (ip s) -> frames s -> leaf frames (fun _ => True) (enter_array bc s n).
    Proof.
      intros A B. assert (LP : forall b, leaf frames (fun _ => True) (loop_push (set_buf s b) n)).
      { intros b. unfold loop_push, arr_push. destruct (_ <=? _); [exact I|]. destruct (_ <? _); cbn [lift leaf]; [|exact I]. constructor; [exact A|exact B]. }
      assert (LP' : leaf frames (fun _ => True) (loop_push s n)) by (specialize (LP (buf s)); now destruct s).
      unfold enter_array. destruct (0 <? n); [|exact B]. unfold try_bulk. lvs; try exact LP'; try apply LP. exact B.
    Qed.
    Lemma end_frames s : frames s -> leaf frames (fun _ => True) (arr_end s).
    Proof.
      intros B. unfold arr_end. unfold frames in B. destruct (loops s) as [|[b n] rest] eqn:EL; [exact I|]. inversion B as [|x y B1 B2]; subst. cbn [fst] in B1.
      destruct (n =? eof_mark); cbv zeta.
      - destruct (cur s <? dlen s); [cbn [leaf]; unfold frames; cbn; rewrite EL; now constructor|]. apply leaf_call; [exact I|]. intros r. exact B2.
      - destruct (0 <? _); [cbn [leaf]; unfold frames; cbn; now constructor|]. apply leaf_call; [exact I|]. intros r. exact B2.
    Qed.
    Lemma open_frames op s : opens_array (classify op) = true -> ip s + (class_size (classify op) - 1) <= lenN bc -> Q (ip s + (class_size (classify op) - 1)) -> frames s ->
      leaf frames (fun _ => True) (exec_op lm bc op s).
    Proof.
      intros OA HN A B. unfold exec_op. destruct (classify op); try discriminate OA; cbn [class_size] in *.
      - unfold arr_pre. apply leaf_fetch; [cbn; lia|]. intros key. cbv zeta. lvs; (apply enter_frames; [exact A|exact B]).
      - unfold arr_fixed. apply leaf_fetch; [cbn; lia|]. intros key. apply leaf_fetch; [cbn; lia|]. intros c. cbv zeta. apply leaf_call; [exact I|]. intros r.
        apply enter_frames; [cbn; now replace (ip s + 2 + 4) with (ip s + (7 - 1)) by lia|exact B].
      - unfold arr_eof. apply leaf_fetch; [cbn; lia|]. intros key. cbv zeta. destruct (_ <=? _); [exact I|]. unfold arr_push. destruct (_ <? _); cbn [lift]; [|exact I].
        cbn [dlen set_loops set_ip ip loops]. destruct (_ <=? _); cbn [leaf]; unfold frames; cbn; (constructor; [exact A|exact B]).
      - unfold arr_dynamic. apply leaf_fetch; [cbn; lia|]. intros key. apply leaf_fetch; [cbn; lia|]. intros c. cbv zeta. apply leaf_call; [exact I|]. intros r.
        destruct (_ <? _); [exact I|]. apply leaf_call; [exact I|]. intros r'. apply enter_frames; [cbn; now replace (ip s + 2 + 2) with (ip s + (5 - 1)) by lia|exact B].
    Qed.
  End Frames.
  (** A loop that goes on goes back to where it starts *)
  Lemma end_goes s b rest : loops s = (b, 0xFFFFFFFF) :: rest -> cur s < lenN (buf s) -> arr_end s = Cont (set_ip s b).
  Proof. intros EL L. unfold arr_end. rewrite EL. change (0xFFFFFFFF =? eof_mark) with true. cbv iota. unfold dlen. now replace (cur s <? lenN (buf s)) with true by lia. Qed.
End Ops.

Section Program.
  Variables (names : list (list N)) (is : list instr).
  Notation bc := (code is).
  Hypothesis WF : Forall (well_formed names) is.
  Hypothesis TM : forall i, In i is -> In (opcode i) tame_ops.
  Hypothesis AR : ends_apart is \/ forall i, In i is -> array_class (classify (opcode i)) = false.
  Hypothesis NO : forall i, In i is -> opcode i <> 0x4A.
  Hypothesis GD : good is.
  Hypothesis WB : wf_bytes bc.
  Hypothesis BL : lenN bc < 2 ^ 62.
  Variable lm : libm.
  Context {H : Type} (host : H -> request -> H * reply).

  Definition feeding (p : N) : Prop := exists a b, is = a ++ b /\ p = lenN (code a) /\ lead b.
  Lemma boundary_split p : boundary is p -> p < lenN bc -> exists a i b, is = a ++ i :: b /\ p = lenN (code a) /\ nthN bc p = opcode i /\ p + class_size (classify (opcode i)) = lenN (code (a ++ [i])) /\ p + class_size (classify (opcode i)) <= lenN bc.
  Proof.
    intros (a & b & E & ->) L. destruct b as [|i b]; [rewrite E, app_nil_r in L; lia|]. exists a, i, b. split; [exact E|]. split; [reflexivity|].
    assert (EB : bc = code a ++ instr_bytes i ++ code b) by (rewrite E, code_app; reflexivity).
    assert (I : In i is) by (rewrite E; apply in_or_app; right; now left).
    assert (SZ : lenN (instr_bytes i) = class_size (classify (opcode i))) by (apply (instr_size names); [exact (proj1 (Forall_forall _ _) WF i I)|auto]).
    split; [|split].
    - rewrite EB. unfold nthN. rewrite app_nth2 by (unfold lenN; lia). unfold lenN. rewrite Nat2N.id, Nat.sub_diag. reflexivity.
    - rewrite code_app, lenN_app. unfold code at 3. cbn [flat_map]. rewrite app_nil_r, SZ. reflexivity.
    - rewrite EB, !lenN_app, SZ. lia.
  Qed.
  (** Every loop starts before a field *)
  Definition ready (s : st) : Prop := on is s /\ frames feeding s /\ plainly s.
  Lemma step_exec s h x h' t : ip s < lenN bc -> interp host (step lm bc s) h = (SCont x, h', t) ->
    interp host (exec_op lm bc (opcode_at bc s) (align (opcode_at bc s) (set_ip s (ip s + 1)))) h = (SCont x, h', t).
  Proof. intros HI X. unfold step in X. rewrite mem_eq in X. destruct (N.ltb_spec (ip s) (lenN bc)); [|lia]. exact X. Qed.
  Lemma align_opt op s : opt (align op s) = opt s. Proof. unfold align. destruct (_ && _); reflexivity. Qed.
  Lemma step_ready s h s' h' t : ready s -> ip s < lenN bc -> interp host (step lm bc s) h = (SCont s', h', t) -> ready s'.
  Proof.
    intros (O & F & P) HI X. split; [exact (step_on names is WF TM AR lm host _ _ _ _ _ O HI X)|].
    apply step_exec in X; [|exact HI]. destruct O as (B & _). destruct (boundary_split _ B HI) as (a & i & b & E & EP & EO & EN & LN).
    assert (I : In i is) by (rewrite E; apply in_or_app; right; now left). unfold opcode_at in X. rewrite EO in X.
    set (s1 := align (opcode i) (set_ip s (ip s + 1))) in *.
    assert (S1 : ip s1 = ip s + 1 /\ loops s1 = loops s) by exact (align_same (opcode i) (set_ip s (ip s + 1))). destruct S1 as [S1 S2].
    pose proof (TM i I) as IT. pose proof (tame_classes _ IT) as TC.
    assert (SZ : 1 <= class_size (classify (opcode i))) by (destruct (classify (opcode i)); cbn [class_size]; try destruct w32; lia).
    assert (P1 : plainly s1) by (unfold plainly, s1; rewrite align_opt; exact P).
    assert (F1 : frames feeding s1) by (unfold frames; rewrite S2; exact F).
    split; [|exact (interp_leaf host _ _ _ (exec_plainly lm bc _ s1 TC (NO i I) IT P1) _ _ _ _ X)].
    destruct (opens_array (classify (opcode i))) eqn:OA.
    - refine (interp_leaf host _ _ _ (open_frames lm bc feeding _ s1 OA _ _ F1) _ _ _ _ X); rewrite S1; [lia|].
      exists (a ++ [i]), b. split; [rewrite E, <- app_assoc; reflexivity|]. split; [lia|exact (GD a i b E OA)].
    - destruct (array_class (classify (opcode i))) eqn:AC.
      + assert (EC : classify (opcode i) = CArrEnd) by (destruct (classify (opcode i)); try discriminate AC; try discriminate OA; reflexivity).
        unfold exec_op in X. rewrite EC in X. exact (interp_leaf host _ _ _ (end_frames feeding s1 F1) _ _ _ _ X).
      + pose proof (exec_on lm bc _ s1 TC AC ltac:(lia)) as LF. pose proof (interp_leaf host _ _ _ LF _ _ _ _ X) as (_ & Y). unfold frames. rewrite Y. exact F1.
  Qed.
  Lemma reaches_ready s h s' h' : ready s -> reaches host lm bc s h s' h' -> ready s'.
  Proof. intros O R. induction R as [s h|s h s1 h1 s2 h2 t R IH HI X]; [exact O|]. exact (step_ready _ _ _ _ _ (IH O) HI X). Qed.
  Lemma init_ready m data : ready (init m data).
  Proof. split; [split; [apply boundary_start|constructor]|]. split; [constructor|reflexivity]. Qed.

  (** On the way to the first field of a pass, or behind it *)
  Definition under_way (z : N) (s : st) : Prop := z < position s \/ (z <= position s /\ feeding (ip s)).
  Lemma feeding_at s : feeding (ip s) -> exists a i b, is = a ++ i :: b /\ ip s = lenN (code a) /\ ip s < lenN bc /\ opcode_at bc s = opcode i /\ array_class (classify (opcode i)) = false /\ (takes (classify (opcode i)) = true \/ lead b).
  Proof.
    intros (a & b & E & EP & (pre & c & rest & EB & ST & TK)). 
    assert (G : exists i b', b = i :: b' /\ array_class (classify (opcode i)) = false /\ (takes (classify (opcode i)) = true \/ lead b')).
    { destruct pre as [|i pre].
      - exists c, rest. split; [exact EB|]. split; [|now left]. apply takes_aligns; [exact TK|]. apply TM. rewrite E, EB. apply in_or_app. right. now left.
      - exists i, (pre ++ c :: rest). split; [exact EB|]. inversion ST; subst. split; [assumption|]. right. exists pre, c, rest. auto. }
    destruct G as (i & b' & -> & AC & G). 
    assert (L : ip s < lenN bc) by (rewrite EP, E, code_app, lenN_app; unfold code at 3; cbn [flat_map]; unfold instr_bytes at 1; cbn [app]; rewrite lenN_cons; lia).
    exists a, i, b'. split; [exact E|]. split; [exact EP|]. split; [exact L|]. split; [|auto]. unfold opcode_at. rewrite EP.
    assert (EB2 : bc = code a ++ instr_bytes i ++ code b') by (rewrite E, code_app; reflexivity). rewrite EB2. unfold nthN. rewrite app_nth2 by (unfold lenN; lia). unfold lenN. rewrite Nat2N.id, Nat.sub_diag. reflexivity.
  Qed.
  Lemma step_way z s h s' h' t : sane s -> ready s -> under_way z s -> ip s < lenN bc -> interp host (step lm bc s) h = (SCont s', h', t) -> under_way z s'.
  Proof.
    intros SN (O & F & P) U HI X. destruct (step_sane host lm bc BL WB s h s' h' t SN HI X) as (_ & _ & M). destruct U as [U|[U FD]]; [left; lia|].
    destruct (feeding_at s FD) as (a & i & b & E & EP & _ & EO & AC & G). assert (I : In i is) by (rewrite E; apply in_or_app; right; now left).
    pose proof (TM i I) as IT. pose proof (tame_classes _ IT) as TC. apply step_exec in X; [|exact HI]. rewrite EO in X.
    set (s1 := align (opcode i) (set_ip s (ip s + 1))) in *.
    assert (S1 : ip s1 = ip s + 1 /\ loops s1 = loops s) by exact (align_same (opcode i) (set_ip s (ip s + 1))). destruct S1 as [S1 S2].
    assert (P1 : plainly s1) by (unfold plainly, s1; rewrite align_opt; exact P).
    assert (SZ : 1 <= class_size (classify (opcode i))) by (destruct (classify (opcode i)); cbn [class_size]; try destruct w32; lia).
    destruct (takes (classify (opcode i))) eqn:TK.
    - left. pose proof (interp_leaf host _ _ _ (exec_takes lm bc _ s1 TK P1) _ _ _ _ X) as (C & B).
      assert (position s <= position s1) by (unfold s1, align; destruct SN as (_ & B8 & _); destruct (_ && _); unfold position; cbn [cur boff set_ip set_cur set_boff]; lia). unfold position in *. lia.
    - right. split; [lia|]. destruct G as [G|G]; [discriminate|]. destruct O as (BD & _). destruct (boundary_split _ BD HI) as (a' & i' & b' & E' & EP' & EO' & EN' & LN').
      unfold opcode_at in EO. rewrite EO in EO'. rewrite <- EO' in EN', LN'.
      pose proof (exec_on lm bc _ s1 TC AC ltac:(lia)) as LF. pose proof (interp_leaf host _ _ _ LF _ _ _ _ X) as (Y & _). rewrite Y, S1.
      exists (a ++ [i]), b. split; [rewrite E, <- app_assoc; reflexivity|]. split; [|exact G].
      rewrite code_app, lenN_app. unfold code at 2. cbn [flat_map]. rewrite app_nil_r, (instr_size names) by (auto; exact (proj1 (Forall_forall _ _) WF i I)). lia.
  Qed.
  Lemma reaches_way z s h s' h' : sane s -> ready s -> under_way z s -> reaches host lm bc s h s' h' -> under_way z s'.
  Proof.
    intros SN O U R. induction R as [s h|s h s1 h1 s2 h2 t R IH HI X]; [exact U|].
    destruct (reaches_sane host lm bc WB BL _ _ _ _ SN R) as (SN1 & _). exact (step_way z _ _ _ _ _ SN1 (reaches_ready _ _ _ _ O R) (IH SN O U) HI X).
  Qed.

  Lemma always_ends m data h fuel : wf_bytes data -> (8 * lenN data + 1) * (lenN bc + 2 ^ 32) ^ 17 <= N.of_nat fuel ->
    fst (fst (run host lm bc fuel (init m data) h)) <> OutOfFuel.
  Proof.
    intros WD FU. apply terminates; auto.
    - intros s1 h1 s2 h2 t R HI OP _. destruct (reaches_ready _ _ _ _ (init_ready m data) R) as ((B & _) & _). destruct (boundary_next names is WF TM _ B HI) as (_ & _ & IT).
      unfold opcode_at in OP. exfalso. clear - OP IT. each_op IT; lia.
    - intros s1 h1 s2 h2 t s3 h3 R (HI & OP & BP & (b & rest & EL)) X R3 (HI3 & OP3 & _) _.
      assert (SN0 : sane (init m data)) by (repeat split; try exact WD; try constructor; cbn; lia). destruct (reaches_sane host lm bc WB BL _ _ _ _ SN0 R) as (SN1 & _).
      pose proof (reaches_ready _ _ _ _ (init_ready m data) R) as RD1. pose proof RD1 as (_ & F1 & _).
      destruct (step_sane host lm bc BL WB s1 h1 s2 h2 t SN1 HI X) as (SN2 & _ & M). pose proof (step_ready _ _ _ _ _ RD1 HI X) as RD2.
      assert (FB : feeding b) by (unfold frames in F1; rewrite EL in F1; exact (Forall_inv F1)).
      assert (I2 : ip s2 = b).
      { apply step_exec in X; [|exact HI]. rewrite OP in X. change (exec_op lm bc 0x38) with arr_end in X.
        set (s := align 0x38 (set_ip s1 (ip s1 + 1))) in *. rewrite (end_goes s b rest) in X.
        - injection X as <- <- <-. reflexivity.
        - unfold s, align. destruct (_ && _); exact EL.
        - unfold s, align, byte_pos, position in *. destruct SN1 as (_ & B8 & _). change (aligns 0x38) with true. cbn [andb]. cbn [set_ip boff]. destruct (N.eqb_spec (boff s1) 0); cbn [negb cur buf set_ip set_cur set_boff]; lia. }
      destruct (reaches_way (position s1) s2 h2 s3 h3 SN2 RD2) as [G|[_ G]]; [right; split; [exact M|rewrite I2; exact FB]|exact R3|exact G|].
      destruct (feeding_at s3 G) as (a & i & b' & _ & _ & _ & EO & AC & _). rewrite OP3 in EO. rewrite <- EO in AC. discriminate.
  Qed.
End Program.

(** Without arrays there is nothing to go back to *)
Lemma straight_ends names is : Forall (well_formed names) is -> (forall i, In i is -> In (opcode i) tame_ops) -> (forall i, In i is -> array_class (classify (opcode i)) = false) ->
  wf_bytes (code is) -> lenN (code is) < 2 ^ 62 -> forall lm H (host : H -> request -> H * reply) m data h fuel, wf_bytes data ->
  (8 * lenN data + 1) * (lenN (code is) + 2 ^ 32) ^ 17 <= N.of_nat fuel -> fst (fst (run host lm (code is) fuel (init m data) h)) <> OutOfFuel.
Proof.
  intros WF TM NA WB BL lm H host m data h fuel WD FU. apply terminates; auto.
  - intros s1 h1 s2 h2 t R HI OP _. destruct (reaches_on names is WF TM (or_intror NA) lm host m data _ _ _ R) as (B & _). destruct (boundary_next names is WF TM _ B HI) as (_ & _ & IT).
    unfold opcode_at in OP. exfalso. clear - OP IT. each_op IT; lia.
  - intros s1 h1 s2 h2 t s3 h3 R (HI & OP & _) _ _ _ _. exfalso. destruct (reaches_on names is WF TM (or_intror NA) lm host m data _ _ _ R) as (B & _).
    destruct (boundary_at is TM _ B HI) as (i & I & EO & _). unfold opcode_at in OP. rewrite OP in EO. specialize (NA i I). rewrite <- EO in NA. discriminate.
Qed.
