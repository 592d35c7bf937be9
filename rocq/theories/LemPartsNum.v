(** Running converted and optional fields. *)
From Coq Require Import ZifyBool ZifyNat ZifyN.
From Verif Require Import Base SpecBytes LemBase ModelWord LemWord ModelFloat ModelTrans ModelVM SpecVM LemAct LemWire LemInstr LemField LemCheck LemTrans LemScale
  SpecParse SpecNames SpecPacket SpecFlow SpecMessage LemFlow LemImage LemSend LemMessage SpecNest LemNest LemNestRun LemJnum SpecParts.
Ltac Zify.zify_post_hook ::= Z.div_mod_to_equations.

(** ** Successive instructions of any kind *)
Section Goes.
  Context {H : Type} (host : H -> request -> H * reply) (lm : libm) (bc : list N).
  Inductive goes : nat -> st -> H -> st -> H -> list event -> Prop :=
  | goes_none s h : goes 0 s h s h []
  | goes_more n s h s1 h1 t1 s2 h2 t2 : ip s < lenN bc -> interp host (step lm bc s) h = (SCont s1, h1, t1) -> goes n s1 h1 s2 h2 t2 -> goes (S n) s h s2 h2 (t1 ++ t2).
  Lemma goes_one s h s1 h1 t1 : ip s < lenN bc -> interp host (step lm bc s) h = (SCont s1, h1, t1) -> goes 1 s h s1 h1 t1.
  Proof. intros L E. rewrite <- (app_nil_r t1). eapply goes_more; eauto. constructor. Qed.
  Lemma goes_trans n m s h s1 h1 t1 s2 h2 t2 : goes n s h s1 h1 t1 -> goes m s1 h1 s2 h2 t2 -> goes (n + m) s h s2 h2 (t1 ++ t2).
  Proof. intros A B. induction A; [exact B|]. cbn [Nat.add]. rewrite <- app_assoc. eapply goes_more; eauto. Qed.
  Lemma steps_goes n s h s1 h1 t : steps host lm bc n s h s1 h1 t -> goes n s h s1 h1 t.
  Proof. induction 1; [constructor|]. eapply goes_more; eauto. Qed.
  Lemma goes_then n s h s1 h1 t1 fuel r h2 t2 : goes n s h s1 h1 t1 -> run host lm bc fuel s1 h1 = (r, h2, t2) -> run host lm bc (n + fuel) s h = (r, h2, t1 ++ t2).
  Proof.
    intros A R. induction A as [s h|n s h s1 h1 t1 s2 h3 t3 I E A IH]; [exact R|]. cbn [Nat.add run].
    destruct (N.leb_spec (lenN bc) (ip s)); [lia|]. rewrite E, IH by exact R. cbn. now rewrite app_assoc.
  Qed.
  Lemma goes_run n s h s1 h1 t1 : goes n s h s1 h1 t1 -> lenN bc <= ip s1 -> forall fuel, (n < fuel)%nat -> run host lm bc fuel s h = (Done EOk s1, h1, t1).
  Proof.
    intros A L fuel F. replace fuel with (n + S (fuel - n - 1))%nat by lia. rewrite <- (app_nil_r t1). eapply goes_then; [exact A|].
    cbn [run]. destruct (N.leb_spec (lenN bc) (ip s1)); [reflexivity|lia].
  Qed.
End Goes.

(** ** One field *)
Definition conv_wf (c : conversion) : Prop :=
  match c with CSame => True | CAdd z | CSub z | CMul z | CDiv z => small64 z | CLinear a b => a < 2 ^ 64 /\ b < 2 ^ 64 end.
Lemma number_back z : small64 z -> number 8 true (ofZ 8 z) = z.
Proof. intros S. apply number_ofZ; [lia|]. exact S. Qed.
Lemma int_width ty : 0x10 <= ty <= 0x17 -> type_bytes ty = Some (width ty) /\ 1 <= width ty <= 8.
Proof. intros T. assert (ty = 0x10 \/ ty = 0x11 \/ ty = 0x12 \/ ty = 0x13 \/ ty = 0x14 \/ ty = 0x15 \/ ty = 0x16 \/ ty = 0x17) as C by lia. decompose [or] C; subst ty; cbn; split; auto; lia. Qed.
Lemma number_toS v : number 8 true v = toS 8 v.
Proof. change (toS 8 v) with (ival {| i_w := W8; i_signed := true |} v). now rewrite number_ival. Qed.
Lemma stores_wire c ty t v raw : c <> CSame -> 0x10 <= ty <= 0x17 -> wbytes (i_w t) = width ty -> i_signed t = type_signed ty -> raw < 2 ^ (8 * width ty) ->
  stores c ty v raw -> to_wire t (trans_of c) v = Ok raw.
Proof.
  intros NC TY EW ES RL ST. destruct (int_width ty TY) as (_ & WW).
  assert (OR : ofZ (width ty) (meant ty raw) = raw) by (apply ofZ_number; lia).
  assert (INT : int_transform (trans_of c) -> v < 2 ^ 64 -> small64 (meant ty raw) -> meant ty raw = raw_number (trans_of c) (number 8 true v) -> to_wire t (trans_of c) v = Ok raw).
  { intros IT VL SM E. rewrite to_wire_int, <- number_toS, <- E, EW, OR by assumption. unfold small64 in SM.
    destruct (Z.leb_spec (- 2 ^ 63) (meant ty raw)), (Z.ltb_spec (meant ty raw) (2 ^ 63)); cbn [andb]; reflexivity || lia. }
  destruct c as [|z|z|z|z|a b]; cbn [stores trans_of] in *; [congruence| | | | |].
  - destruct ST as (A & B & C). apply INT; auto. exact Logic.I.
  - destruct ST as (A & B & C). apply INT; auto. exact Logic.I.
  - destruct ST as (A & B & Z0 & C). apply INT; auto; [exact Logic.I|]. cbn [raw_number]. destruct (Z.eqb_spec z 0); [congruence|exact C].
  - destruct ST as (A & B & C). apply INT; auto. exact Logic.I.
  - destruct ST as (_ & ST). unfold to_wire, f64_to_ity, imin, imax. rewrite EW, ES. fold (least ty). fold (greatest ty). rewrite ST. cbn [bindR]. now rewrite OR.
Qed.
Lemma reports_wire c ty t v raw : c <> CSame -> 0x10 <= ty <= 0x17 -> wbytes (i_w t) = width ty -> i_signed t = type_signed ty -> raw < 2 ^ (8 * width ty) ->
  reports c ty raw v -> from_wire t (trans_of c) raw = Ok v.
Proof.
  intros NC TY EW ES RL RP.
  assert (IV : ival t raw = meant ty raw) by (rewrite number_ival, EW, ES; reflexivity).
  assert (INT : int_transform (trans_of c) -> v < 2 ^ 64 -> small64 (meant ty raw) -> number 8 true v = eng_number (trans_of c) (meant ty raw) -> from_wire t (trans_of c) raw = Ok v).
  { intros IT VL SM E. replace v with (ofZ 8 (number 8 true v)) by (apply ofZ_number; [lia|exact VL]).
    apply from_wire_int; [exact IT|now rewrite EW|rewrite IV; exact SM|rewrite IV; now symmetry|]. rewrite number_toS. now apply small_toS. }
  destruct c as [|z|z|z|z|a b]; cbn [reports trans_of] in *; [congruence| | | | |].
  - destruct RP as (A & B & C). apply INT; auto. exact Logic.I.
  - destruct RP as (A & B & C). apply INT; auto. exact Logic.I.
  - destruct RP as (A & B & C). apply INT; auto. exact Logic.I.
  - destruct RP as (A & B & Z0 & C). apply INT; auto; [exact Logic.I|]. cbn [eng_number]. destruct (Z.eqb_spec z 0); [congruence|exact C].
  - unfold from_wire. rewrite IV. now subst v.
Qed.
Definition near (s : st) (m : mode) (o : endian) (q : N) (L : list (N * N)) (b : list N) (p : N) (t : trans) : Prop :=
  md s = m /\ tr s = t /\ boff s = 0 /\ en s = o /\ ip s = q /\ loops s = L /\ buf s = b /\ cur s = p.
Lemma at_near s m o q L b p : at_point s m o q L b p <-> near s m o q L b p TNone.
Proof. unfold at_point, ready, near. tauto. Qed.

Section Number.
  Context {H : Type} (host : H -> request -> H * reply) (lm : libm) (bc : list N).
  Hypothesis WB : wf_bytes bc.
  Notation goes := (goes host lm bc).

  Lemma optional_steps {A} (l : list A) : forall q s h m o L bf p t, placed bc q (SpecNames.code (map (fun _ => ins 0x4A [] []) l)) -> near s m o q L bf p t ->
    exists s', goes (length l) s h s' h [] /\ near s' m o (q + lenN l) L bf p t /\ (l <> [] -> opt s' = true).
  Proof.
    induction l as [|a l IH]; intros q s h m o L bf p t P R.
    - exists s. split; [constructor|]. change (lenN []) with 0. rewrite N.add_0_r. split; [exact R|congruence].
    - cbn [map] in P. change (ins 0x4A [] [] :: ?l) with ([ins 0x4A [] []] ++ l) in P. rewrite code_app in P. apply placed_app in P as (P1 & P2).
      change (lenN (SpecNames.code [ins 0x4A [] []])) with 1 in P2. pose proof (placed_le _ _ _ P1) as QL. change (lenN (SpecNames.code [ins 0x4A [] []])) with 1 in QL.
      change (SpecNames.code [ins 0x4A [] []]) with [0x4A] in P1. apply placed_one in P1 as (HO & _). destruct R as (R1 & R2 & R3 & R4 & R5 & R6 & R7 & R8).
      set (s1 := set_opt (set_ip s (ip s + 1)) true).
      assert (S1 : goes 1 s h s1 h []).
      { apply goes_one; [lia|]. rewrite (step_at lm bc s 0x4A) by (try lia; unfold opcode_at; now rewrite R5). rewrite align_no by reflexivity. reflexivity. }
      destruct (IH (q + 1) s1 h m o L bf p t P2) as (s2 & S2 & N2 & O2).
      { unfold near, s1. cbn [md tr boff en ip loops buf cur set_ip set_opt]. rewrite R5. repeat split; auto. }
      exists s2. split; [change (length (a :: l)) with (1 + length l)%nat; change (@nil event) with (@nil event ++ []); eapply goes_trans; eauto|].
      rewrite lenN_cons. replace (q + (lenN l + 1)) with (q + 1 + lenN l) by lia. split; [exact N2|]. intros _.
      destruct l as [|b l]; [|now apply O2]. inversion S2; subst. reflexivity.
  Qed.
  Lemma conv_steps c q s h m o L bf p : conv_wf c -> placed bc q (SpecNames.code (conv_instrs c)) -> near s m o q L bf p TNone ->
    exists n s', goes n s h s' h [] /\ near s' m o (q + lenN (SpecNames.code (conv_instrs c))) L bf p (trans_of c) /\ opt s' = opt s.
  Proof.
    intros W P R. destruct c as [|z|z|z|z|a b].
    1:{ exists 0%nat, s. split; [constructor|]. change (lenN (SpecNames.code (conv_instrs CSame))) with 0. rewrite N.add_0_r. auto. }
    all: destruct R as (R1 & R2 & R3 & R4 & R5 & R6 & R7 & R8).
    1-4: cbn [conv_instrs trans_of] in *; set (arg := bytes_of LE 8 (ofZ 8 z)) in *;
      assert (LA : lenN arg = 8) by (unfold arg; rewrite lenN_bytes_of; reflexivity); pose proof (placed_le _ _ _ P) as QL;
      cbn [SpecNames.code flat_map instr_bytes opcode refs args ins app] in *; rewrite app_nil_r in *; rewrite lenN_cons, LA in *; apply placed_one in P as (HO & P);
      assert (OA : operand_at bc s 1 8 = ofZ 8 z) by
        (unfold operand_at; rewrite R5; destruct P as (P & _); rewrite LA in P; rewrite P; unfold arg; rewrite val_bytes; apply N.mod_small; apply ofZ_bound);
      match goal with |- context [near _ _ _ _ _ _ _ ?t] => exists 1%nat, (set_tr (set_ip s (ip s + 9)) t); split;
        [apply goes_one; [lia|]; apply trans_setup; [exact WB|lia|]; rewrite OA, number_back by exact W; unfold opcode_at; rewrite R5, HO; tauto
        |split; [|reflexivity]; unfold near; cbn [md tr boff en ip loops buf cur set_ip set_tr]; rewrite R5; repeat split; auto; lia] end.
    cbn [conv_instrs trans_of] in *. pose proof (placed_le _ _ _ P) as QL. cbn [SpecNames.code flat_map instr_bytes opcode refs args ins app] in *. rewrite app_nil_r in *.
    rewrite lenN_cons, lenN_app, !lenN_bytes_of in *. apply placed_one in P as (HO & P). apply placed_app in P as (P1 & P2). rewrite lenN_bytes_of in P2.
    destruct W as (WA & WX).
    assert (O1 : operand_at bc s 1 8 = a).
    { unfold operand_at. rewrite R5. destruct P1 as (P1 & _). rewrite lenN_bytes_of in P1. change (N.of_nat 8) with 8 in P1. rewrite P1, val_bytes. now apply N.mod_small. }
    assert (O2 : operand_at bc s 9 8 = b).
    { unfold operand_at. rewrite R5. destruct P2 as (P2 & _). rewrite lenN_bytes_of in P2. change (N.of_nat 8) with 8 in P2. replace (q + 9) with (q + 1 + 8) by lia. rewrite P2, val_bytes. now apply N.mod_small. }
    exists 1%nat, (set_tr (set_ip s (ip s + 17)) (TScale a b)). split.
    - apply goes_one; [lia|]. rewrite scale_setup by (try exact WB; try lia; unfold opcode_at; now rewrite R5). now rewrite O1, O2.
    - split; [|reflexivity]. unfold near. cbn [md tr boff en ip loops buf cur set_ip set_tr]. rewrite R5. repeat split; auto.
  Qed.
  Lemma order_near q (b : bool) s h m o L bf p t : placed bc q (SpecNames.code [ins (if b then 0x02 else 0x01) [] []]) -> near s m o q L bf p t ->
    exists s', goes 1 s h s' h [] /\ near s' m (if b then BE else LE) (q + 1) L bf p t /\ opt s' = opt s.
  Proof.
    intros P (R1 & R2 & R3 & R4 & R5 & R6 & R7 & R8). pose proof (placed_le _ _ _ P) as QL. change (lenN (SpecNames.code [ins (if b then 2 else 1) [] []])) with 1 in QL.
    change (SpecNames.code [ins (if b then 2 else 1) [] []]) with [if b then 0x02 else 0x01] in P. apply placed_one in P as (HO & _).
    exists (set_en (set_ip s (ip s + 1)) (if b then BE else LE)). split.
    - apply goes_one; [lia|]. apply byte_order; [lia|]. unfold opcode_at. rewrite R5, HO. now destruct b.
    - split; [|reflexivity]. unfold near. cbn [md tr boff en ip loops buf cur set_ip set_en]. rewrite R5. repeat split; auto.
  Qed.
  (** Decorators, byte order, and a field that resets them *)
  Lemma number_frame ds ty k q s h h1 m o L bf p bf' p' t : conv_wf (u_conv (num_of ds)) ->
    placed bc q (SpecNames.code (map (fun _ => ins 0x4A [] []) (filter is_optional ds) ++ conv_instrs (u_conv (num_of ds)) ++ marked (u_big (num_of ds)) [ins ty [k] []])) ->
    at_point s m o q L bf p ->
    (forall q1 s1, placed bc q1 (SpecNames.code [ins ty [k] []]) -> near s1 m (order_in (u_big (num_of ds)) o) q1 L bf p (trans_of (u_conv (num_of ds))) -> (In NOptional ds -> opt s1 = true) ->
       exists s', goes 1 s1 h s' h1 t /\ near s' m (order_in (u_big (num_of ds)) o) (q1 + 3) L bf' p' TNone) ->
    exists n s', goes n s h s' h1 t /\ at_point s' m (order_out (u_big (num_of ds)) o)
      (q + lenN (SpecNames.code (map (fun _ => ins 0x4A [] []) (filter is_optional ds) ++ conv_instrs (u_conv (num_of ds)) ++ marked (u_big (num_of ds)) [ins ty [k] []]))) L bf' p'.
  Proof.
    intros W P AT F. set (c := num_of ds) in *. apply at_near in AT. rewrite !code_app in P |- *. apply placed_app in P as (P1 & P). apply placed_app in P as (P2 & P3).
    assert (LO : lenN (SpecNames.code (map (fun _ : numdec => ins 0x4A [] []) (filter is_optional ds))) = lenN (filter is_optional ds)).
    { clear. induction (filter is_optional ds) as [|a l IH]; [reflexivity|]. cbn [map]. rewrite code_cons, lenN_app, lenN_cons, IH. change (lenN (instr_bytes (ins 0x4A [] []))) with 1. lia. }
    rewrite LO in *. rewrite !lenN_app, LO.
    destruct (optional_steps (filter is_optional ds) q s h m o L bf p TNone P1 AT) as (s1 & S1 & N1 & O1).
    destruct (conv_steps (u_conv c) _ s1 h m o L bf p W P2 N1) as (n2 & s2 & S2 & N2 & O2).
    assert (OT : In NOptional ds -> opt s2 = true).
    { intros I. rewrite O2. apply O1. intros E. assert (J : In NOptional (filter is_optional ds)) by (apply filter_In; auto). rewrite E in J. destruct J. }
    assert (S12 : goes (length (filter is_optional ds) + n2) s h s2 h []) by (change (@nil event) with (@nil event ++ []); eapply goes_trans; eauto).
    set (q2 := q + lenN (filter is_optional ds) + lenN (SpecNames.code (conv_instrs (u_conv c)))) in *. rewrite !N.add_assoc. fold q2.
    destruct (u_big c) eqn:BG; cbn [marked order_in order_out] in *.
    - rewrite !code_app in P3 |- *. apply placed_app in P3 as (P3 & P4). apply placed_app in P4 as (P4 & P5). rewrite !lenN_app. change (lenN (SpecNames.code [ins 2 [] []])) with 1 in *. change (lenN (SpecNames.code [ins 1 [] []])) with 1 in *.
      change (lenN (SpecNames.code [ins ty [k] []])) with 3 in *.
      destruct (order_near q2 true s2 h m o L bf p _ P3 N2) as (s3 & S3 & N3 & O3).
      destruct (F (q2 + 1) s3 P4 N3) as (s4 & S4 & N4). { intros I. rewrite O3. auto. }
      destruct (order_near (q2 + 1 + 3) false s4 h1 m BE L bf' p' _ P5 N4) as (s5 & S5 & N5 & _).
      exists (length (filter is_optional ds) + n2 + (1 + (1 + 1)))%nat, s5. split.
      + change t with ([] ++ [] ++ t). rewrite <- (app_nil_r t). eapply goes_trans; [exact S12|]. eapply goes_trans; [exact S3|]. eapply goes_trans; eauto.
      + apply at_near. rewrite !N.add_assoc. exact N5.
    - change (lenN (SpecNames.code [ins ty [k] []])) with 3 in *. destruct (F q2 s2 P3 N2 OT) as (s4 & S4 & N4).
      exists (length (filter is_optional ds) + n2 + 1)%nat, s4. split; [change t with ([] ++ t); eapply goes_trans; eauto|]. apply at_near. exact N4.
  Qed.

  (** A field that is there *)
  Lemma present_step c ty k q s h h1 m o L p old raw v r : 0x10 <= ty <= 0x1A -> (c <> CSame -> ty <= 0x17) -> k < 65536 -> number_ok ty raw -> wf_bytes (p ++ old) ->
    placed bc q (SpecNames.code [ins ty [k] []]) -> near s m o q L (p ++ old) (lenN p) (trans_of c) ->
    let x := bytes_of o (N.to_nat (width ty)) raw in fits m x old ->
    match m with Enc => answer (shown_size c ty) 0 r = v /\ stores c ty v raw | Dec => reports c ty raw v end ->
    let rq := ask k (shown_type c ty) (cvar (shown_size c ty) (match m with Enc => 0 | Dec => v end)) (HField ty (trans_of c)) in
    host h rq = (h1, r) -> r_ok r = true ->
    exists s', goes 1 s h s' h1 [(rq, r)] /\ near s' m o (q + 3) L (p ++ after x old) (lenN p + width ty) TNone.
  Proof.
    intros TY CT K NO WF P NR x (LX & DX) V rq HH HR.
    assert (LXW : lenN x = width ty) by (unfold x; rewrite lenN_bytes_of; lia). rewrite LXW in LX.
    assert (DEC : m = Dec -> old = x ++ skipn (N.to_nat (width ty)) old). { intros E. rewrite <- (DX E) at 1. unfold after. now rewrite LXW. }
    assert (C : c = CSame \/ c <> CSame) by (destruct c; auto; right; discriminate). destruct C as [-> |NC].
    - cbn [trans_of shown_size shown_type stores reports] in *. apply at_near in NR. destruct m.
      + destruct V as (V & ->).
        destruct (scalar_enc host lm bc WB q ty k s h h1 r o L p old P TY K NR LX HH HR) as (s' & S' & A').
        { intros E. destruct NO as (_ & NO). rewrite V. auto. }
        exists s'. split; [now apply steps_goes|]. apply at_near. rewrite V in A'. exact A'.
      + subst v. specialize (DEC eq_refl). rewrite DEC in NR.
        destruct (scalar_dec host lm bc WB q ty k s h h1 r o L p (skipn (N.to_nat (width ty)) old) raw P TY K NR) as (s' & S' & A'); auto.
        { destruct NR as (_ & _ & -> & _). now rewrite DEC in WF. }
        exists s'. split; [now apply steps_goes|]. apply at_near. unfold after. rewrite LXW. exact A'.
    - specialize (CT NC). destruct NR as (R1 & R2 & R3 & R4 & R5 & R6 & R7 & R8).
      cbn [SpecNames.code flat_map instr_bytes opcode refs args ins app] in P. rewrite app_nil_r in P. destruct (placed_key bc q ty k _ P K s R5) as (HO & HK & HI).
      destruct (int_width ty ltac:(lia)) as (TB & WW). destruct (type_int ty _ TB) as (w & IT & EW & _). set (t := {| i_w := w; i_signed := type_signed ty |}) in *.
      assert (BP : byte_pos s = lenN p) by (rewrite byte_pos0 by exact R3; exact R8).
      assert (LB : byte_pos s + wbytes (i_w t) <= lenN (buf s)) by (change (i_w t) with w; rewrite EW, BP, R7, lenN_app; lia).
      assert (ES : shown_size c ty = wbytes (eng_w w (tr s))) by (rewrite R2; destruct c; congruence || reflexivity).
      assert (ET : shown_type c ty = eng_op ty (tr s)) by (rewrite R2; destruct c; congruence || reflexivity).
      assert (EQ : rq = ask (key_at bc s) (eng_op ty (tr s)) (PInt (eng_w w (tr s)) (match m with Enc => 0 | Dec => v end)) (HField ty (tr s))).
      { unfold rq. rewrite ES, ET, cvar_w, HK, R2. reflexivity. }
      rewrite EQ in HH |- *. destruct m.
      + destruct V as (V & ST). exists (stored s 3 (width ty) raw). split.
        * apply goes_one; [lia|]. rewrite <- EW. change w with (i_w t). apply (int_enc host lm bc WB s h h1 r ty t raw HO IT HI ltac:(lia) R1 LB HH HR).
          change (i_w t) with w. rewrite answer_got, <- ES, V, R2. apply (stores_wire c ty); auto; [lia|apply NO].
        * unfold near, stored. cbn [md tr boff en ip loops buf cur]. rewrite R4, R5, BP, R7. unfold x in *. rewrite put_front by lia. repeat split; auto.
      + exists (taken s 3 (width ty)). split.
        * apply goes_one; [lia|]. rewrite <- EW. change w with (i_w t). apply (int_dec host lm bc WB s h h1 r ty t v HO IT HI ltac:(lia) R1 LB); auto; [now rewrite R7|].
          change (i_w t) with w. rewrite EW, BP, R7, R4, R2.
          replace (sub (p ++ old) (lenN p) (width ty)) with x by (rewrite (DEC eq_refl), <- LXW; symmetry; apply sub_front). unfold x. rewrite val_bytes, mod_pow by apply NO. apply (reports_wire c ty); auto; [lia|apply NO].
        * unfold near, taken. cbn [md tr boff en ip loops buf cur]. rewrite R4, R5, BP, R7. rewrite (DX eq_refl). repeat split; auto.
  Qed.
  (** A field that is not *)
  Lemma missing_step ty k q s h h1 m o L p old r : 0x10 <= ty <= 0x1A -> k < 65536 -> placed bc q (SpecNames.code [ins ty [k] []]) ->
    near s m o q L (p ++ old) (lenN p) TNone -> opt s = true -> lenN old < width ty ->
    let rq := ask k ty (cvar (width ty) 0) (HMissing ty) in host h rq = (h1, r) -> r_ok r = true ->
    exists s', goes 1 s h s' h1 [(rq, r)] /\ near s' m o (q + 3) L (p ++ old) (lenN p) TNone.
  Proof.
    intros TY K P (R1 & R2 & R3 & R4 & R5 & R6 & R7 & R8) OP LO rq HH HR.
    cbn [SpecNames.code flat_map instr_bytes opcode refs args ins app] in P. rewrite app_nil_r in P. destruct (placed_key bc q ty k _ P K s R5) as (HO & HK & HI).
    assert (BP : byte_pos s = lenN p) by (rewrite byte_pos0 by exact R3; exact R8).
    exists (set_opt (set_ip (set_boff (set_cur s (byte_pos s)) 0) (ip s + 3)) false). split.
    2:{ unfold near. cbn [md tr boff en ip loops buf cur set_ip set_opt set_boff set_cur]. rewrite R5. repeat split; auto. }
    assert (B8 : boff s < 8) by lia. apply goes_one; [lia|]. unfold rq in *. rewrite <- HK in *.
    destruct (width_cases ty TY) as [(w & sg & IT & EW & NB)|[(d & EC & EA & EW & NB)|EB]].
    - rewrite EW in *. rewrite cvar_w in *. destruct (int_class _ _ IT) as [EC EA]. rewrite (step_at lm bc s ty) by (auto; lia). rewrite align_eq by auto. rewrite byte_pos_ip.
      unfold exec_op. rewrite EC. unfold io_int, io_scalar. cbn [ip set_ip set_boff set_cur tr md buf cur en lift i_w]. rewrite key_eq by auto. cbn [lift].
      unfold dlen. cbn [ip set_ip set_boff set_cur tr md buf cur en opt]. destruct (N.ltb_spec (lenN (buf s)) (byte_pos s + wbytes w)) as [_|X]; [|rewrite BP, R7, lenN_app in X; lia].
      rewrite OP. erewrite interp_call; [|exact HH|exact HR]. reflexivity.
    - rewrite EW in *. rewrite cvar_w in *. rewrite (step_at lm bc s ty) by (auto; lia). rewrite align_eq by auto. rewrite byte_pos_ip.
      unfold exec_op. rewrite EC. unfold io_float, io_scalar. cbn [ip set_ip set_boff set_cur tr md buf cur en lift]. rewrite key_eq by auto. cbn [lift].
      unfold dlen. cbn [ip set_ip set_boff set_cur tr md buf cur en opt]. destruct (N.ltb_spec (lenN (buf s)) (byte_pos s + wbytes (f_width d))) as [_|X]; [|rewrite BP, R7, lenN_app in X; lia].
      rewrite OP. erewrite interp_call; [|exact HH|exact HR]. reflexivity.
    - rewrite EB in HO, HH, LO |- *. change (width 0x1A) with 1 in *. change (cvar 1 0) with (PInt W1 0) in *. enter_op HO. unfold io_bool. enter_args. rewrite key_eq by (auto; lia). cbn [lift]. enter_args.
      destruct (N.ltb_spec (lenN (buf s)) (byte_pos s + 1)) as [_|X]; [|rewrite BP, R7, lenN_app in X; lia].
      rewrite OP. erewrite interp_call; [|exact HH|exact HR]. reflexivity.
  Qed.
End Number.
