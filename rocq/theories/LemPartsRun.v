(** Running packets with bit fields and checksums. *)
From Coq Require Import ZifyBool ZifyNat ZifyN.
From Verif Require Import Base SpecBytes LemBase ModelWord LemWord ModelBits LemBits ModelFloat ModelTrans ModelVM SpecVM SpecCrc LemAct LemInstr LemField LemCheck LemStr LemArr LemCrc LemSeal
  SpecParse SpecNames SpecPacket SpecFlow SpecMessage LemFlow LemImage LemSend LemMessage SpecNest LemNest LemNestRun SpecParts LemPartsBits LemPartsNum.
Ltac Zify.zify_post_hook ::= Z.div_mod_to_equations.

(** ** Checksums *)
Lemma sub_one b p : p + 1 <= lenN b -> sub b p 1 = [nthN b p].
Proof. intros L. apply nthN_ext; rewrite lenN_sub by lia; [reflexivity|]. intros i I. rewrite nthN_sub by lia. replace i with 0 by lia. now rewrite N.add_0_r. Qed.
Lemma crc_width_cases c : crc_width c = 2 \/ crc_width c = 4.
Proof. unfold crc_width. destruct (k_wide c) as [[]|]; auto. Qed.
Lemma checksum_lt c data : wf_bytes data -> checksum c data < 2 ^ (8 * crc_width c).
Proof.
  intros W. unfold checksum. set (w := 8 * crc_width c). assert (P : forall x, x mod 2 ^ w < 2 ^ w) by (intros x; apply N.mod_lt, N.pow_nonzero; lia).
  apply crc_spec_lt; auto; [unfold w; destruct (crc_width_cases c) as [-> | ->]; lia|]. unfold crc_start. destruct (_ && _ && _ && _) eqn:F; [|auto].
  replace w with 32 by lia. apply reversed_lt.
Qed.
Lemma flag_bits (i o : bool) : N.testbit ((if i then 1 else 0) + (if o then 2 else 0)) 0 = i /\ N.testbit ((if i then 1 else 0) + (if o then 2 else 0)) 1 = o.
Proof. destruct i, o; split; reflexivity. Qed.
Lemma checksum_detects c a b k : N.odd (k_poly c) = true -> wf_bytes a -> wf_bytes b -> lenN a = lenN b -> a <> b ->
  (forall i, i < 8 * lenN a -> message_bit (k_in c) a i <> message_bit (k_in c) b i -> k <= i < k + 8 * crc_width c) -> checksum c a <> checksum c b.
Proof.
  intros OD WA WB LE NE WN. unfold checksum. set (w := 8 * crc_width c) in *. assert (P : forall x, x mod 2 ^ w < 2 ^ w) by (intros x; apply N.mod_lt, N.pow_nonzero; lia).
  assert (W0 : 0 < w) by (unfold w; destruct (crc_width_cases c) as [-> | ->]; lia).
  apply spec_detects with (k := k); auto.
  - rewrite N.mod_pow2_bits_low by lia. now rewrite N.bit0_odd.
  - unfold crc_start. destruct (_ && _ && _ && _) eqn:F; [|auto]. replace w with 32 by lia. apply reversed_lt.
Qed.

Section Check.
  Context {H : Type} (host : H -> request -> H * reply) (lm : libm) (bc : list N).
  Hypothesis WB : wf_bytes bc.
  Lemma check_at q c s : placed bc q (code [check_instr c]) -> ip s = q ->
    crc_size (opcode_at bc s) = Some (crc_width c) /\ ip s + 2 + 3 * crc_width c <= lenN bc /\ lenN (code [check_instr c]) = 2 + 3 * crc_width c /\
    (forall data, field_crc bc s (crc_width c) data = checksum c data).
  Proof.
    intros P I. pose proof (placed_le _ _ _ P) as LB. set (n := crc_width c) in *. set (op := match k_wide c with Some true => 73 | _ => 68 end).
    assert (EC : code [check_instr c] = op :: bytes_of LE (N.to_nat n) (k_poly c) ++ bytes_of LE (N.to_nat n) (k_init c) ++ bytes_of LE (N.to_nat n) (k_xor c) ++ [(if k_in c then 1 else 0) + (if k_out c then 2 else 0)])
      by (unfold code, check_instr; cbn [flat_map instr_bytes opcode refs args ins map]; now rewrite app_nil_r).
    assert (LC : lenN (code [check_instr c]) = 2 + 3 * n) by (rewrite EC, lenN_cons, !lenN_app, !lenN_bytes_of; change (lenN [_]) with 1; lia).
    rewrite EC in P. rewrite LC in LB.
    assert (E : crc_size op = Some n) by (unfold op, n, crc_width; destruct (k_wide c) as [[]|]; reflexivity).
    apply placed_one in P as (HO & P). rewrite <- I in HO. change (opcode_at bc s = op) in HO.
    apply placed_app in P as (P1 & P). rewrite lenN_bytes_of, N2Nat.id in P. apply placed_app in P as (P2 & P). rewrite lenN_bytes_of, N2Nat.id in P. apply placed_app in P as (P3 & P). rewrite lenN_bytes_of, N2Nat.id in P.
    apply placed_one in P as (P4 & _).
    assert (OP : forall i v, placed bc (q + i) (bytes_of LE (N.to_nat n) v) -> operand_at bc s i n = v mod 2 ^ (8 * n)).
    { intros i v X. unfold operand_at. rewrite I. apply placed_val in X. rewrite N2Nat.id in X. rewrite X. f_equal. rewrite N.pow_mul_r. reflexivity. }
    split; [rewrite HO; exact E|]. split; [lia|]. split; [exact LC|]. intros data. unfold field_crc, checksum. fold n.
    rewrite (OP 1 _ P1), (OP (1 + n) (k_init c)) by (rewrite N.add_assoc; exact P2). rewrite (OP (1 + 2 * n) (k_xor c)) by (replace (q + (1 + 2 * n)) with (q + 1 + n + n) by lia; exact P3).
    assert (FL : operand_at bc s (1 + 3 * n) 1 = (if k_in c then 1 else 0) + (if k_out c then 2 else 0)).
    { unfold operand_at. rewrite I. replace (q + (1 + 3 * n)) with (q + 1 + n + n + n) by lia. rewrite sub_one by lia. rewrite P4. cbn [val_of rev app fold_right]. destruct (k_in c), (k_out c); reflexivity. }
    rewrite FL. destruct (flag_bits (k_in c) (k_out c)) as (-> & ->). reflexivity.
  Qed.

  Lemma check_steps q c s h m o L p old : placed bc q (code [check_instr c]) -> at_point s m o q L (p ++ old) (lenN p) -> wf_bytes (p ++ old) ->
    let x := bytes_of o (N.to_nat (crc_width c)) (checksum c p) in fits m x old ->
    exists s', steps host lm bc 1 s h s' h [] /\ at_point s' m o (q + lenN (code [check_instr c])) L (p ++ after x old) (lenN p + crc_width c).
  Proof.
    intros P AT WF x (LX & DX). destruct AT as ((R1 & R2 & R3 & R4 & R5) & A1 & A2 & A3). destruct (check_at q c s P R5) as (HO & HI & LC & FC). set (n := crc_width c) in *.
    assert (BP : byte_pos s = lenN p) by (rewrite byte_pos0 by exact R3; exact A3).
    assert (LXN : lenN x = n) by (unfold x; rewrite lenN_bytes_of; lia). rewrite LXN in LX.
    assert (SP : sub (buf s) 0 (byte_pos s) = p) by (rewrite A2, BP; unfold sub; cbn [N.to_nat skipn]; unfold lenN; rewrite Nat2N.id, firstn_app, firstn_all, Nat.sub_diag; cbn [firstn]; apply app_nil_r).
    assert (NE : opcode_at bc s <> 0x41 /\ opcode_at bc s <> 0x4A) by (split; intros E; rewrite E in HO; discriminate HO).
    assert (FIN : forall s1, md s1 = md s -> tr s1 = tr s -> boff s1 = 0 -> en s1 = en s -> ip s1 = ip s + (2 + 3 * n) -> loops s1 = loops s -> buf s1 = p ++ after x old -> cur s1 = byte_pos s + n ->
      at_point s1 m o (q + (2 + 3 * n)) L (p ++ after x old) (lenN p + n)).
    { intros s1 Q1 Q2 Q3 Q4 Q5 Q6 Q7 Q8. unfold at_point, ready. rewrite Q1, Q2, Q3, Q4, Q5, Q6, Q7, Q8, BP, R5. repeat split; auto. }
    rewrite LC. destruct m.
    - pose proof (crc_enc host lm bc WB s h n HO HI ltac:(lia) ltac:(now rewrite A2) R1 ltac:(rewrite A2, BP, lenN_app; lia)) as X. cbv zeta in X. rewrite FC, SP in X.
      eexists. split; [apply steps_one; [lia|exact NE|exact X]|]. apply FIN; try reflexivity. cbn [buf set_cur set_buf]. rewrite A2, BP, R4. fold x. unfold after. apply put_front. lia.
    - specialize (DX eq_refl).
      pose proof (crc_dec host lm bc WB s h n HO HI ltac:(lia) ltac:(now rewrite A2) R1 ltac:(rewrite A2, BP, lenN_app; lia)) as X. cbv zeta in X. rewrite FC, SP in X.
      assert (SX : sub (buf s) (byte_pos s) n = x).
      { rewrite A2, BP, <- DX. unfold after, sub, lenN. rewrite Nat2N.id, skipn_app, skipn_all, Nat.sub_diag. cbn [skipn app]. rewrite firstn_app. unfold lenN in LXN. replace (N.to_nat n - length x)%nat with 0%nat by lia.
        cbn [firstn]. rewrite app_nil_r. apply firstn_all2. lia. }
      rewrite SX, R4 in X. unfold x in X at 1. rewrite val_bytes, N2Nat.id in X. replace (256 ^ n) with (2 ^ (8 * n)) in X by (rewrite N.pow_mul_r; reflexivity).
      rewrite N.mod_small in X by (apply checksum_lt; apply Forall_app in WF; apply WF). rewrite N.eqb_refl in X.
      eexists. split; [apply steps_one; [lia|exact NE|exact X]|]. apply FIN; try reflexivity. cbn [buf set_cur aligned set_boff set_ip]. now rewrite DX.
  Qed.
  Lemma check_refuses q c s h o L p old : placed bc q (code [check_instr c]) -> at_point s Dec o q L (p ++ old) (lenN p) -> wf_bytes (p ++ old) ->
    crc_width c <= lenN old -> val_of o (sub old 0 (crc_width c)) <> checksum c p ->
    exists s', (forall fuel, run host lm bc (S fuel) s h = (Done ECrc s', h, [])) /\ buf s' = p ++ old.
  Proof.
    intros P AT WF LX NE. destruct AT as ((R1 & R2 & R3 & R4 & R5) & A1 & A2 & A3). destruct (check_at q c s P R5) as (HO & HI & LC & FC). set (n := crc_width c) in *.
    assert (BP : byte_pos s = lenN p) by (rewrite byte_pos0 by exact R3; exact A3).
    assert (SP : sub (buf s) 0 (byte_pos s) = p) by (rewrite A2, BP; unfold sub; cbn [N.to_nat skipn]; unfold lenN; rewrite Nat2N.id, firstn_app, firstn_all, Nat.sub_diag; cbn [firstn]; apply app_nil_r).
    pose proof (crc_dec host lm bc WB s h n HO HI ltac:(lia) ltac:(now rewrite A2) R1 ltac:(rewrite A2, BP, lenN_app; lia)) as X. cbv zeta in X. rewrite FC, SP, R4 in X.
    assert (SX : sub (buf s) (byte_pos s) n = sub old 0 n) by (rewrite A2, BP; unfold sub, lenN; rewrite Nat2N.id, skipn_app, skipn_all, Nat.sub_diag; reflexivity).
    rewrite SX in X. destruct (N.eqb_spec (val_of o (sub old 0 n)) (checksum c p)); [contradiction|].
    exists (aligned s (2 + 3 * n)). split; [|exact A2]. intros fuel. cbn [run]. destruct (N.leb_spec (lenN bc) (ip s)); [lia|]. rewrite X. reflexivity.
  Qed.
End Check.

(** ** Parts *)
Definition part_plain (id : list N -> N) (p : part) : Prop :=
  match p with Member m => member_plain m | Bits l => Forall (bit_wf id) l | Check _ _ => True
  | Numeric ds ty _ => 0x10 <= ty <= 0x1A /\ (u_conv (num_of ds) <> CSame -> ty <= 0x17) /\ conv_wf (u_conv (num_of ds)) end.
Fixpoint parts_ok (ps : list part) (gs : list given) : Prop :=
  match ps, gs with [], [] => True | p :: ps, g :: gs => part_ok p g /\ parts_ok ps gs | _, _ => False end.
Lemma stream_bytes o l vs : lenN (stream_of LE 0 l vs) mod 8 = 0 -> 8 * lenN (packed o (stream_of o 0 l vs)) = lenN (stream_of LE 0 l vs).
Proof. intros M. rewrite lenN_packed, stream_len. lia. Qed.
Section Parts.
  Context {H : Type} (host : H -> request -> H * reply) (lm : libm) (bc : list N).
  Hypothesis WB : wf_bytes bc.
  Variables (m : mode) (id : list N -> N) (names : N).
  Hypothesis NM : names <= 65536.

  Lemma bits_point q l vs s h h' t o L p old : bits_said m id l vs t -> bits_ok l vs -> Forall (bit_wf id) l -> lenN (stream_of LE 0 l vs) mod 8 = 0 ->
    placed bc q (code (map (bit_instr id) l)) -> at_point s m o q L (p ++ old) (lenN p) -> wf_bytes (p ++ old) ->
    let x := packed o (stream_of o 0 l vs) in fits m x old -> plays host h t h' ->
    exists n s', steps host lm bc n s h s' h' t /\ at_point s' m o (q + lenN (code (map (bit_instr id) l))) L (p ++ after x old) (lenN p + lenN x).
  Proof.
    intros SD OK BW M8 P ((R1 & R2 & R3 & R4 & R5) & A1 & A2 & A3) WF x (LX & DX) PL. pose proof (stream_bytes o l vs M8) as LS. fold x in LS. pose proof (stream_len o 0 l vs) as SL.
    set (st0 := stream_of o 0 l vs) in *.
    assert (PO : position s = 8 * lenN p) by (unfold position; lia).
    destruct (bits_steps host lm bc WB m id l vs 0 q s h h' t o L (p ++ old) SD OK BW P) as (n & s' & bf & S1 & (I1 & I2 & I3 & I4 & I5 & I6 & I7) & PX & LD); auto.
    - unfold in_bits. rewrite R3. repeat split; auto.
    - rewrite PO. lia.
    - fold st0. rewrite PO, lenN_app. lia.
    - fold st0. intros E k K. specialize (DX E). rewrite PO, <- DX. rewrite !sbit_eq. unfold nthN, after. rewrite !nth_two.
      destruct (N.ltb_spec ((8 * lenN p + k) / 8) (lenN p)); [lia|]. destruct (N.ltb_spec ((8 * lenN p + k) / 8 - lenN p) (lenN x)); [|lia].
      rewrite <- (sbit_packed o) by lia. rewrite sbit_eq. fold x. unfold nthN. f_equal; [f_equal; lia|f_equal; lia].
    - fold st0 in PX, LD. rewrite PO in LD, PX. apply laid_packed in LD; auto; [|lia|lia]. fold x in LD.
      exists n, s'. split; [exact S1|]. unfold position in PX. unfold at_point, ready. rewrite <- LD. repeat split; auto; lia.
  Qed.

  Lemma parts_steps : forall pos old ps gs t, parts_said m id pos old ps gs t -> forall q s o p h h',
    Forall (part_plain id) ps -> small id names (flat_map part_names ps) -> Forall (fun x => part_depth x <= 8) ps -> parts_ok ps gs -> Forall2 (part_skips names) ps gs ->
    placed bc q (code (flat_map (part_instrs id) ps)) -> at_point s m o q [] (p ++ old) pos -> lenN p = pos -> wf_bytes (p ++ old) ->
    fits m (fst (parts_bytes p ps gs o)) old -> plays host h t h' ->
    exists n s', goes host lm bc n s h s' h' t /\
      at_point s' m (snd (parts_bytes p ps gs o)) (q + lenN (code (flat_map (part_instrs id) ps))) [] (p ++ after (fst (parts_bytes p ps gs o)) old) (pos + lenN (fst (parts_bytes p ps gs o))).
  Proof.
    assert (MIX : forall a g ps gs q s o p h h1 h' t1 u old z,
      (forall q s, placed bc q (code (part_instrs id a)) -> at_point s m o q [] (p ++ old) (lenN p) -> fits m (fst (part_bytes p a g o)) old ->
        lenN (fst (part_bytes p a g o)) = z /\ wf_bytes (fst (part_bytes p a g o)) /\ exists n s1, goes host lm bc n s h s1 h1 t1 /\
        at_point s1 m (snd (part_bytes p a g o)) (q + lenN (code (part_instrs id a))) [] (p ++ after (fst (part_bytes p a g o)) old) (lenN p + lenN (fst (part_bytes p a g o)))) ->
      (forall q s o p', placed bc q (code (flat_map (part_instrs id) ps)) -> at_point s m o q [] (p' ++ skipn (N.to_nat z) old) (lenN p + z) -> lenN p' = lenN p + z -> wf_bytes (p' ++ skipn (N.to_nat z) old) ->
        fits m (fst (parts_bytes p' ps gs o)) (skipn (N.to_nat z) old) -> exists n s', goes host lm bc n s h1 s' h' u /\
        at_point s' m (snd (parts_bytes p' ps gs o)) (q + lenN (code (flat_map (part_instrs id) ps))) [] (p' ++ after (fst (parts_bytes p' ps gs o)) (skipn (N.to_nat z) old)) (lenN p + z + lenN (fst (parts_bytes p' ps gs o)))) ->
      placed bc q (code (flat_map (part_instrs id) (a :: ps))) -> at_point s m o q [] (p ++ old) (lenN p) -> wf_bytes (p ++ old) -> fits m (fst (parts_bytes p (a :: ps) (g :: gs) o)) old ->
      exists n s', goes host lm bc n s h s' h' (t1 ++ u) /\
        at_point s' m (snd (parts_bytes p (a :: ps) (g :: gs) o)) (q + lenN (code (flat_map (part_instrs id) (a :: ps)))) [] (p ++ after (fst (parts_bytes p (a :: ps) (g :: gs) o)) old)
          (lenN p + lenN (fst (parts_bytes p (a :: ps) (g :: gs) o)))).
    { intros a g ps gs q s o p h h1 h' t1 u old z ONE REST P AT WF F. cbn [flat_map] in P |- *. rewrite code_app in P |- *. apply placed_app in P as (P1 & P2).
      cbn [parts_bytes] in F |- *. destruct (part_bytes p a g o) as [x o1] eqn:EB. destruct (parts_bytes (p ++ x) ps gs o1) as [y o2] eqn:EP. cbn [fst snd] in *.
      apply fits_app in F as (F1 & F2). destruct (ONE q s P1 AT F1) as (Z & WX & n1 & s1 & S1 & AT1). rewrite Z in F2. 
      specialize (REST (q + lenN (code (part_instrs id a))) s1 o1 (p ++ x) P2). rewrite EP in REST. cbn [fst snd] in REST.
      assert (EA : p ++ after x old = (p ++ x) ++ skipn (N.to_nat z) old) by (unfold after; rewrite Z; now rewrite app_assoc).
      assert (WA : wf_bytes (p ++ after x old)).
      { apply Forall_app in WF as (WP & WO). apply Forall_app. split; [exact WP|]. apply Forall_app. split; [exact WX|]. rewrite <- (firstn_skipn (N.to_nat (lenN x)) old) in WO. apply Forall_app in WO. apply WO. }
      destruct REST as (n2 & s2 & S2 & AT2); auto.
      - rewrite <- EA, <- Z. exact AT1.
      - rewrite lenN_app. lia.
      - now rewrite <- EA.
      - exists (n1 + n2)%nat, s2. split; [eapply goes_trans; eauto|]. rewrite !lenN_app, !N.add_assoc. rewrite Z.
        replace (p ++ after (x ++ y) old) with ((p ++ x) ++ after y (skipn (N.to_nat z) old)); [exact AT2|].
        rewrite <- app_assoc. f_equal. rewrite <- Z. apply after_two. }
    induction 1 as [pos old|pos old a d z t ps gs u SD R IH|pos old l vs z t ps gs u SD Z R IH|pos old ds n ps gs u z R IH|pos old ds ty n raw v r ps gs u c z HR HV R IH|pos old ds ty n r ps gs u HR HL R IH]; intros q s o p h h' PP SM DP OK SK P AT LP WF F PL; subst pos.
    - inversion PL; subst. exists 0%nat, s. split; [constructor|]. cbn [flat_map parts_bytes fst snd]. change (lenN (code [])) with 0. change (lenN (@nil N)) with 0. rewrite !N.add_0_r. exact AT.
    - apply plays_app in PL as (h1 & PL1 & PL2). pose proof (Forall_inv PP) as PA. apply Forall_inv_tail in PP. pose proof (Forall_inv DP) as DA. apply Forall_inv_tail in DP. destruct OK as (OA & OK). inversion SK as [|? ? ? ? SA SK']; subst.
      cbn [flat_map] in SM. apply small_app in SM as (SM1 & SM2). pose proof (fun o => proj1 (said_sizes m id) _ _ _ _ _ _ _ SD o) as ZS. eapply (MIX _ _ _ _ q s o p h h1 h' t u old z); auto.
      + intros q1 s1 P1 AT1 F1. cbn [part_bytes part_instrs part_plain part_depth part_ok part_skips part_names] in *. split; [apply ZS|]. split; [now apply tree_wf|]. rewrite ZS.
        assert (X : exists n s2, steps host lm bc n s1 h s2 h1 t /\ at_point s2 m (snd (member_bytes a d o)) (q1 + lenN (code (member_instrs id [] a))) [] (p ++ after (fst (member_bytes a d o)) old) (lenN p + z)).
        { eapply (proj1 (said_runs host lm bc WB m id names NM)); eauto. change (lenN []) with 0. now rewrite N.add_0_r. }
        destruct X as (n & s2 & X & Y). exists n, s2. split; [now apply steps_goes|exact Y].
    - apply plays_app in PL as (h1 & PL1 & PL2). pose proof (Forall_inv PP) as PA. apply Forall_inv_tail in PP. apply Forall_inv_tail in DP. destruct OK as (OA & OK). inversion SK as [|? ? ? ? SA SK']; subst.
      cbn [flat_map] in SM. apply small_app in SM as (SM1 & SM2). cbn [part_plain part_ok] in PA, OA. destruct OA as (OA & M8). eapply (MIX _ _ _ _ q s o p h h1 h' t u old z); auto.
      + intros q1 s1 P1 AT1 F1. cbn [part_bytes part_instrs fst snd] in *. pose proof (stream_bytes o l vs M8) as LS. split; [lia|]. split; [apply wf_packed|].
        destruct (bits_point q1 l vs s1 h h1 t o [] p old) as (n & s2 & X & Y); auto. exists n, s2. split; [now apply steps_goes|exact Y].
    - apply Forall_inv_tail in PP. apply Forall_inv_tail in DP. destruct OK as (OA & OK). inversion SK as [|? ? ? ? SA SK']; subst.
      cbn [flat_map part_names app] in SM. change u with ([] ++ u). eapply (MIX _ _ _ _ q s o p h h h' [] u old z); auto.
      + intros q1 s1 P1 AT1 F1. cbn [part_bytes part_instrs fst snd] in *. set (c := crc_of ds) in *.
        split; [rewrite lenN_bytes_of; unfold z; lia|]. split; [apply wf_bytes_of|]. rewrite lenN_bytes_of, N2Nat.id.
        eapply (mark_point host lm bc q1 (k_big c) [check_instr c] s1 h m o (order_in (k_big c) o) [] (p ++ old) (lenN p) [] h) in P1 as X; [|exact AT1|].
        2:{        intros q2 s2 P2 AT2. destruct (check_steps host lm bc WB q2 c s2 h m _ [] p old P2 AT2 WF F1) as (s3 & S3 & AT3). exists 1%nat, s3. split; [exact S3|exact AT3]. }
        destruct X as (n1 & s3 & S3 & AT3). exists n1, s3. split; [now apply steps_goes|]. destruct (k_big c); exact AT3.
    - inversion PL as [|? ? ? h1 ? ? HH PL2]; subst. pose proof (Forall_inv PP) as PA. apply Forall_inv_tail in PP. apply Forall_inv_tail in DP. destruct OK as (OA & OK). inversion SK as [|? ? ? ? SA SK']; subst.
      cbn [flat_map part_names] in SM. apply small_app in SM as (SM1 & SM2). cbn [part_plain part_ok] in PA, OA. destruct PA as (TY & CT & CW).
      match goal with |- context [?e :: u] => change (e :: u) with ([e] ++ u) end. eapply (MIX _ _ _ _ q s o p h h1 h' [(ask (id n) (shown_type c ty) (cvar (shown_size c ty) (match m with Enc => 0 | Dec => v end)) (HField ty (trans_of c)), r)] u old z); auto.
      + intros q1 s1 P1 AT1 F1. cbn [part_bytes part_instrs fst snd] in *. split; [rewrite lenN_bytes_of; unfold z; lia|]. split; [apply wf_bytes_of|]. rewrite lenN_bytes_of, N2Nat.id.
        assert (KL : id n < 65536) by (specialize (SM1 n (or_introl eq_refl)); lia).
        destruct (number_frame host lm bc WB ds ty (id n) q1 s1 h h1 m o [] (p ++ old) (lenN p) (p ++ after (bytes_of (order_in (u_big (num_of ds)) o) (N.to_nat (width ty)) raw) old) (lenN p + width ty)
          [(ask (id n) (shown_type c ty) (cvar (shown_size c ty) (match m with Enc => 0 | Dec => v end)) (HField ty (trans_of c)), r)] CW P1 AT1) as (k1 & s2 & S2 & AT2).
        { intros q2 s2 P2 N2 _. eapply (present_step host lm bc WB c ty (id n) q2 s2 h h1 m _ [] p old raw v r); eauto. }
        exists k1, s2. split; [exact S2|exact AT2].
    - inversion PL as [|? ? ? h1 ? ? HH PL2]; subst. pose proof (Forall_inv PP) as PA. apply Forall_inv_tail in PP. apply Forall_inv_tail in DP. destruct OK as (OA & OK). inversion SK as [|? ? ? ? SA SK']; subst.
      cbn [flat_map part_names] in SM. apply small_app in SM as (SM1 & SM2). cbn [part_plain part_ok] in PA, OA. destruct PA as (TY & CT & CW). destruct OA as (ON & OC).
      match goal with |- context [?e :: u] => change (e :: u) with ([e] ++ u) end. eapply (MIX _ _ _ _ q s o p h h1 h' [(ask (id n) ty (cvar (width ty) 0) (HMissing ty), r)] u old 0); auto.
      + intros q1 s1 P1 AT1 F1. cbn [part_bytes part_instrs fst snd] in *. split; [reflexivity|]. split; [constructor|].
        assert (KL : id n < 65536) by (specialize (SM1 n (or_introl eq_refl)); lia).
        destruct (number_frame host lm bc WB ds ty (id n) q1 s1 h h1 m o [] (p ++ old) (lenN p) (p ++ old) (lenN p) [(ask (id n) ty (cvar (width ty) 0) (HMissing ty), r)] CW P1 AT1) as (k1 & s2 & S2 & AT2).
        { intros q2 s2 P2 N2 O2. rewrite OC in N2. eapply (missing_step host lm bc WB ty (id n) q2 s2 h h1 m _ [] p old r); eauto. }
        exists k1, s2. split; [exact S2|]. change (lenN (@nil N)) with 0. rewrite N.add_0_r. exact AT2.
      + cbn [N.to_nat skipn]. rewrite N.add_0_r. intros q1 s1 o1 p1 P1 AT1 LP W1' F1. apply (IH q1 s1 o1 p1 h1 h'); auto.
  Qed.
End Parts.

(** ** The whole packet *)
Lemma parts_ok_all ps gs : Forall2 part_ok ps gs -> parts_ok ps gs.
Proof. induction 1; cbn [parts_ok]; auto. Qed.
Lemma parts_wf ps : forall gs p o, parts_ok ps gs -> wf_bytes (fst (parts_bytes p ps gs o)).
Proof.
  induction ps as [|a ps IH]; intros [|g gs] p o K; cbn [parts_ok parts_bytes] in *; try contradiction; [constructor|]. destruct K as (KA & K).
  destruct (part_bytes p a g o) as [x o1] eqn:E. specialize (IH gs (p ++ x) o1 K). destruct (parts_bytes (p ++ x) ps gs o1) as [y o2]. cbn [fst] in *. apply wf_app; [|exact IH].
  change x with (fst (x, o1)). rewrite <- E. destruct a, g; cbn [part_ok part_bytes fst] in *; try contradiction; [now apply tree_wf|apply wf_packed|apply wf_bytes_of|apply wf_bytes_of|constructor].
Qed.
Lemma check_sound c : sound [check_instr c].
Proof.
  constructor; [|constructor]. unfold check_instr. cbn [ins opcode args]. split; [destruct (k_wide c) as [[]|]; lia|].
  apply wf_app; [apply wf_bytes_of|]. apply wf_app; [apply wf_bytes_of|]. apply wf_app; [apply wf_bytes_of|]. constructor; [|constructor]. destruct (k_in c), (k_out c); reflexivity.
Qed.
Lemma part_sound id p : part_plain id p -> sound (part_instrs id p).
Proof.
  destruct p as [m|l|ds n|ds ty n]; cbn [part_plain part_instrs]; intros W; [now apply member_sound| |apply marked_sound, check_sound|].
  2:{ destruct W as (TY & _ & _). apply Forall_app. split; [|apply Forall_app; split].
      - apply Forall_forall. intros i I. apply in_map_iff in I as (b & <- & _). split; [reflexivity|constructor].
      - destruct (u_conv (num_of ds)); cbn [conv_instrs]; [constructor|..]; (constructor; [|constructor]); cbn [ins opcode args]; (split; [reflexivity|]); try apply wf_bytes_of. apply wf_app; apply wf_bytes_of.
      - apply marked_sound. constructor; [|constructor]. cbn [ins opcode args]. split; [lia|constructor]. }
  induction W as [|b l B W IH]; cbn [map]; constructor; auto. destruct b as [sg w n|w|one]; cbn [bit_wf bit_instr ins opcode args] in *.
  - split; [destruct sg; lia|]. repeat constructor. lia.
  - split; [lia|]. repeat constructor. lia.
  - split; [lia|]. repeat constructor. destruct one; lia.
Qed.
Lemma frame_sound id k : Forall (part_plain id) (fr_parts k) -> sound (frame_instrs id k).
Proof.
  intros W. unfold frame_instrs. apply Forall_app. split; [|constructor; [repeat constructor|]].
  - apply Forall_forall. intros i I. apply in_map_iff in I as (b & <- & _). destruct b; (split; [reflexivity|constructor]).
  - induction W as [|a l X F IH]; [constructor|]. cbn [flat_map]. apply Forall_app. split; [now apply part_sound|exact IH].
Qed.
Lemma int_text_small d z : int_text d z -> small64 z.
Proof. intros []; unfold small64, SpecText.wrap64; lia. Qed.
Lemma numdecs_wf dbl ds ws : several (numdec_read dbl) ds ws -> conv_wf (u_conv (num_of ds)).
Proof.
  intros R. unfold num_of. assert (X : conv_wf (u_conv numset0) /\ u_off numset0 < 2 ^ 64) by (split; reflexivity || exact Logic.I). revert X. generalize numset0.
  induction R as [|d l w wr D R IH]; intros c (X & Y); [exact X|]. cbn [fold_left]. apply IH. destruct D; cbn [set_num u_conv u_off conv_wf]; split; auto; try (eapply int_text_small; eassumption).
  all: try (split; auto; reflexivity). all: destruct (u_conv c) as [|z|z|z|z|a b]; cbn [conv_wf] in *; try (split; auto; try reflexivity; tauto).
Qed.
Lemma frame_read_plain dbl id k ws : frame_read dbl k ws -> small id 65536 (frame_names k) -> Forall (part_plain id) (fr_parts k).
Proof.
  intros (sw & os & fw & SR & OR & FR & _) SM. apply small_app in SM as (SM & _).
  assert (KE : forall s b, In (s, b) (fr_structs k) -> every member_plain b) by (intros s b I; apply (structs_read_plain [] _ sw SR) with (s := s); [intros ? ? []|exact I]).
  clear OR. induction FR as [|p l ws1 wr PR FR IH]; constructor.
  - cbn [flat_map] in SM. apply small_app in SM as (SM & _). destruct PR as [m w MR|b w BR|ds n w ty s CR KW I|ds n w ty s NR CT I]; cbn [part_plain part_names] in *; auto.
    3:{ split; [eapply types; eauto|]. split; [exact CT|]. eapply numdecs_wf; eauto. }
    + eapply member_read_plain; eauto.
    + clear - BR SM. induction BR as [|x l w wr R BR IH]; constructor.
      * destruct R; cbn [bit_wf flat_map bit_names app] in *; auto. split; [auto|]. apply SM. now left.
      * apply IH. cbn [flat_map] in SM. now apply small_app in SM.
  - apply IH. cbn [flat_map] in SM. now apply small_app in SM.
Qed.

Lemma orders_len (os : list bool) : lenN (code (map (fun b : bool => ins (if b then 0x02 else 0x01) [] []) os)) = lenN os.
Proof. induction os as [|b os IH]; [reflexivity|]. cbn [map]. rewrite code_cons, lenN_app, IH, lenN_cons. change (lenN (instr_bytes (ins (if b then 2 else 1) [] []))) with 1. lia. Qed.
Lemma orders_last os : last (map (fun b : bool => if b then BE else LE) os) LE = if last os false then BE else LE.
Proof. induction os as [|b os IH]; [reflexivity|]. destruct os as [|c os]; [reflexivity|]. exact IH. Qed.
Section Marks.
  Context {H : Type} (host : H -> request -> H * reply) (lm : libm) (bc : list N).
  Hypothesis WB : wf_bytes bc.
  Lemma marks_steps os : forall q s h m o L bf p, placed bc q (code (map (fun b : bool => ins (if b then 0x02 else 0x01) [] []) os)) -> at_point s m o q L bf p ->
    exists n s', steps host lm bc n s h s' h [] /\ at_point s' m (last (map (fun b : bool => if b then BE else LE) os) o) (q + lenN os) L bf p.
  Proof.
    induction os as [|b os IH]; intros q s h m o L bf p P R.
    - exists 0%nat, s. split; [constructor|]. change (lenN []) with 0. rewrite N.add_0_r. exact R.
    - cbn [map] in P. change (ins (if b then 2 else 1) [] [] :: ?l) with ([ins (if b then 2 else 1) [] []] ++ l) in P. rewrite code_app in P.
      apply placed_app in P as (P1 & P2). change (lenN (code [ins (if b then 2 else 1) [] []])) with 1 in P2.
      destruct (order_point host lm bc q b s h m o L bf p P1 R) as (s1 & S1 & R1).
      destruct (IH (q + 1) s1 h m _ L bf p P2 R1) as (n & s2 & S2 & R2).
      exists (1 + n)%nat, s2. split; [change (@nil event) with (@nil event ++ []); eapply steps_trans; eauto|].
      rewrite lenN_cons. replace (q + (lenN os + 1)) with (q + 1 + lenN os) by lia.
      replace (last (map (fun b : bool => if b then BE else LE) (b :: os)) o) with (last (map (fun b : bool => if b then BE else LE) os) (if b then BE else LE)); [exact R2|].
      destruct os as [|b' os]; [reflexivity|]. cbn [map]. clear. revert b'. induction os as [|c os IH]; intros b'; [reflexivity|]. cbn [map last] in *. apply IH.
  Qed.
  Lemma meta_steps q n s h m o L bf p : placed bc q (code [ins 0x07 [n] []]) -> at_point s m o q L bf p ->
    exists s', steps host lm bc 1 s h s' h [] /\ at_point s' m o (q + 3) L bf p.
  Proof.
    intros P ((R1 & R2 & R3 & R4 & R5) & A1 & A2 & A3). pose proof (placed_le _ _ _ P) as QL. change (lenN (code [ins 7 [n] []])) with 3 in QL.
    cbn [code flat_map instr_bytes opcode refs args ins app] in P. apply placed_one in P as (HO & _). rewrite <- R5 in HO. change (opcode_at bc s = 0x07) in HO.
    exists (set_ip s (ip s + 3)). split.
    - apply steps_one; [lia|lia|]. enter_op HO. enter_args. rewrite key_eq by (auto; lia). reflexivity.
    - unfold at_point, ready. cbn [md tr boff en ip loops buf cur set_ip]. rewrite R5. repeat split; auto.
  Qed.
  Lemma steps_then n s h s1 h1 t1 fuel r h2 t2 : steps host lm bc n s h s1 h1 t1 -> run host lm bc fuel s1 h1 = (r, h2, t2) -> run host lm bc (n + fuel) s h = (r, h2, t1 ++ t2).
  Proof.
    intros A R. induction A as [s h|n s h s1 h1 t1 s2 h3 t3 I O E A IH]; [exact R|]. cbn [Nat.add run].
    destruct (N.leb_spec (lenN bc) (ip s)); [lia|]. rewrite E, IH by exact R. cbn. now rewrite app_assoc.
  Qed.
End Marks.

Section Frame.
  Context {H : Type} (host : H -> request -> H * reply) (lm : libm) (id : list N -> N) (k : frame) (names : N).
  Hypothesis MP : Forall (part_plain id) (fr_parts k).
  Hypothesis SM : small id names (frame_names k).
  Hypothesis NM : names <= 65536.
  Hypothesis DP : Forall (fun x => part_depth x <= 8) (fr_parts k).
  Let bc := code (frame_instrs id k).
  Lemma frame_wf : wf_bytes bc.
  Proof. apply code_wf. now apply frame_sound. Qed.
  Lemma frame_front m old h : exists n s q, steps host lm bc n (init m old) h s h [] /\ at_point s m (frame_order k) q [] old 0 /\
    placed bc q (code (flat_map (part_instrs id) (fr_parts k))) /\ lenN bc = q + lenN (code (flat_map (part_instrs id) (fr_parts k))).
  Proof.
    pose proof frame_wf as WB.
    assert (P : placed bc 0 bc) by (apply placed_split; exists [], []; now rewrite app_nil_r). unfold bc in P at 2. unfold frame_instrs in P.
    change (ins 7 [id (fr_name k)] [] :: ?l) with ([ins 7 [id (fr_name k)] []] ++ l) in P. rewrite !code_app in P.
    apply placed_app in P as (P1 & P). apply placed_app in P as (P2 & P3). rewrite orders_len in *. change (lenN (code [ins 7 [id (fr_name k)] []])) with 3 in P3.
    destruct (marks_steps host lm bc (fr_orders k) 0 (init m old) h m LE [] old 0 P1 ltac:(repeat split)) as (n & s1 & S1 & R1).
    destruct (meta_steps host lm bc WB _ _ s1 h m _ [] old 0 P2 R1) as (s2 & S2 & R2). rewrite orders_last in R2. fold (frame_order k) in R2.
    exists (n + 1)%nat, s2, (0 + lenN (fr_orders k) + 3). split; [change (@nil event) with (@nil event ++ []); eapply steps_trans; eauto|]. split; [exact R2|]. split; [exact P3|].
    unfold bc, frame_instrs. change (ins 7 [id (fr_name k)] [] :: ?l) with ([ins 7 [id (fr_name k)] []] ++ l). rewrite !code_app, !lenN_app, orders_len. change (lenN (code [ins 7 [id (fr_name k)] []])) with 3. lia.
  Qed.
  Lemma frame_run_whole m old gs t h h' : parts_said m id 0 old (fr_parts k) gs t -> Forall2 part_ok (fr_parts k) gs -> Forall2 (part_skips names) (fr_parts k) gs ->
    wf_bytes old -> fits m (frame_bytes k gs) old -> plays host h t h' ->
    exists s' n, (forall fuel, (n <= fuel)%nat -> run host lm bc fuel (init m old) h = (Done EOk s', h', t)) /\
      buf s' = after (frame_bytes k gs) old /\ position s' = 8 * lenN (frame_bytes k gs).
  Proof.
    intros SD OK SK WD F PL. pose proof frame_wf as WB. apply parts_ok_all in OK. pose proof SM as SM'. apply small_app in SM' as (SP & _).
    destruct (frame_front m old h) as (n & s & q & S1 & AT & P & LB).
    destruct (parts_steps host lm bc WB m id names NM 0 old (fr_parts k) gs t SD q s (frame_order k) [] h h') as (n2 & s2 & S2 & ((A1 & A2 & A3 & A4 & A5) & B1 & B2 & B3)); auto.
    exists s2, (S (n + n2)). split; [|split; [exact B2|unfold position, frame_bytes; lia]].
    intros fuel FU. change t with ([] ++ t). eapply goes_run; [eapply goes_trans; [apply steps_goes; exact S1|exact S2]|lia|lia].
  Qed.
  Lemma frame_refuses ps1 ds n ps2 gs stored rest t h h' : fr_parts k = ps1 ++ Check ds n :: ps2 -> Forall2 part_ok ps1 gs -> Forall2 (part_skips names) ps1 gs ->
    let (body, o) := parts_bytes [] ps1 gs (frame_order k) in
    parts_said Dec id 0 (body ++ stored ++ rest) ps1 gs t -> wf_bytes stored -> wf_bytes rest -> lenN stored = crc_width (crc_of ds) ->
    stored <> fst (part_bytes body (Check ds n) Auto o) -> plays host h t h' ->
    exists s' fu, (forall fuel, (fu <= fuel)%nat -> run host lm bc fuel (init Dec (body ++ stored ++ rest)) h = (Done ECrc s', h', t)) /\ buf s' = body ++ stored ++ rest.
  Proof.
    intros EP OK SK. destruct (parts_bytes [] ps1 gs (frame_order k)) as [body o] eqn:EB. intros SD WS WR LS NE PL. pose proof frame_wf as WB. apply parts_ok_all in OK.
    pose proof SM as SM'. apply small_app in SM' as (SP & _). set (old := body ++ stored ++ rest) in *.
    assert (WO : wf_bytes old) by (apply wf_app; [|now apply wf_app]; change body with (fst (body, o)); rewrite <- EB; now apply parts_wf).
    destruct (frame_front Dec old h) as (n1 & s1 & q & S1 & AT & P & LB). pose proof MP as MP'. pose proof DP as DP'. rewrite EP in MP', DP', P, SP.
    apply Forall_app in MP' as (MP1 & _). apply Forall_app in DP' as (DP1 & _). rewrite flat_map_app in P, SP. apply small_app in SP as (SP & _). rewrite code_app in P. apply placed_app in P as (P1 & P2).
    destruct (parts_steps host lm bc WB Dec id names NM 0 old ps1 gs t SD q s1 (frame_order k) [] h h') as (n2 & s2 & S2 & AT2); auto.
    { rewrite EB. cbn [fst]. unfold old. split; [rewrite lenN_app; lia|]. intros _. unfold after. now rewrite skipn_front. }
    rewrite EB in AT2. cbn [fst snd app] in AT2. unfold after, old in AT2. rewrite skipn_front, N.add_0_l in AT2.
    cbn [flat_map part_instrs] in P2. rewrite code_app in P2. apply placed_app in P2 as (P2 & _). set (c := crc_of ds) in *.
    assert (FIN : forall q s o', placed bc q (code [check_instr c]) -> at_point s Dec o' q [] (body ++ stored ++ rest) (lenN body) -> stored <> bytes_of o' (N.to_nat (crc_width c)) (checksum c body) ->
      exists s', (forall fuel, run host lm bc (S fuel) s h' = (Done ECrc s', h', [])) /\ buf s' = body ++ stored ++ rest).
    { intros q' s' o' P' AT' NE'. apply (check_refuses host lm bc WB q' c s' h' o' [] body (stored ++ rest) P' AT'); auto; [rewrite lenN_app; lia|].
      replace (sub (stored ++ rest) 0 (crc_width c)) with stored.
      - intros V. apply NE'. rewrite <- V. symmetry. rewrite <- LS. unfold lenN. rewrite Nat2N.id. apply bytes_val. exact WS.
      - unfold sub. cbn [N.to_nat skipn]. rewrite <- LS. unfold lenN. rewrite Nat2N.id, firstn_app, firstn_all, Nat.sub_diag. cbn [firstn]. now rewrite app_nil_r. }
    cbn [part_bytes fst] in NE. fold c in NE. destruct (k_big c) eqn:KB.
    - unfold marked in P2. change (ins 2 [] [] :: ?l) with ([ins 2 [] []] ++ l) in P2. rewrite !code_app in P2. apply placed_app in P2 as (P2 & P3). apply placed_app in P3 as (P3 & _).
      change (lenN (code [ins 2 [] []])) with 1 in P3.
      destruct (order_point host lm bc _ true s2 h' Dec o [] _ _ P2 AT2) as (s3 & S3 & AT3).
      destruct (FIN _ s3 BE P3 AT3 NE) as (s4 & R4 & B4). exists s4, (n1 + (n2 + (1 + 1)))%nat. split; [|exact B4].
      intros fuel FU. replace fuel with (n1 + (n2 + (1 + S (fuel - (n1 + n2 + 1) - 1))))%nat by lia.
      change t with ([] ++ t). eapply steps_then; [exact S1|]. rewrite <- (app_nil_r t). eapply goes_then; [exact S2|]. change (@nil event) with (@nil event ++ []). eapply steps_then; [exact S3|apply R4].
    - cbn [marked] in P2. destruct (FIN _ s2 o P2 AT2 NE) as (s4 & R4 & B4). exists s4, (n1 + (n2 + 1))%nat. split; [|exact B4].
      intros fuel FU. replace fuel with (n1 + (n2 + S (fuel - (n1 + n2) - 1)))%nat by lia.
      change t with ([] ++ t). eapply steps_then; [exact S1|]. rewrite <- (app_nil_r t). eapply goes_then; [exact S2|apply R4].
  Qed.
End Frame.

Lemma wf_stored b ds n o : wf_bytes (fst (part_bytes b (Check ds n) Auto o)).
Proof. apply wf_bytes_of. Qed.
Lemma len_stored b ds n o : lenN (fst (part_bytes b (Check ds n) Auto o)) = crc_width (crc_of ds).
Proof. cbn [part_bytes fst]. rewrite lenN_bytes_of. lia. Qed.
Lemma stored_differ a b ds n o k : N.odd (k_poly (crc_of ds)) = true -> wf_bytes a -> wf_bytes b -> lenN b = lenN a -> b <> a ->
  (forall i, i < 8 * lenN a -> message_bit (k_in (crc_of ds)) a i <> message_bit (k_in (crc_of ds)) b i -> k <= i < k + 8 * crc_width (crc_of ds)) ->
  fst (part_bytes a (Check ds n) Auto o) <> fst (part_bytes b (Check ds n) Auto o).
Proof.
  intros OD WA WB LE NE WN E. cbn [part_bytes fst] in E. set (c := crc_of ds) in *. apply (checksum_detects c a b k OD WA WB (eq_sym LE) (not_eq_sym NE) WN).
  apply (f_equal (val_of (if k_big c then BE else o))) in E. rewrite !val_bytes, N2Nat.id in E.
  replace (256 ^ crc_width c) with (2 ^ (8 * crc_width c)) in E by (rewrite N.pow_mul_r; reflexivity). now rewrite !N.mod_small in E by (apply checksum_lt; assumption).
Qed.

Lemma frame_plain E path k toks id : holds_frame E path k toks -> lenN (frame_all k) <= 65535 -> small id (lenN (frame_names k)) (frame_names k) ->
  Forall (part_plain id) (fr_parts k) /\ lenN (frame_names k) <= 65536.
Proof.
  intros (src & ws & _ & _ & _ & SR) UL SM. assert (NL : lenN (frame_names k) <= 65536) by (unfold frame_all in UL; rewrite !lenN_app in UL; lia).
  split; [|exact NL]. eapply frame_read_plain; eauto. intros n I. specialize (SM n I). lia.
Qed.
