(** Linear scaling. *)
From Coq Require Import Reals Floats.SpecFloat Lra.
From Flocq Require Import Core BinarySingleNaN.
From Coq Require Import ZifyBool ZifyNat ZifyN.
From Verif Require Import Base SpecBytes LemBase ModelWord LemWord ModelFloat ModelTrans ModelVM SpecVM LemAct LemSafe LemRun LemSafety
  LemWire LemInstr LemField LemTrans LemCheck SpecReal LemReal.
Local Ltac Zify.zify_post_hook ::= Z.div_mod_to_equations.

Lemma known64 : known F64.
Proof. now right. Qed.
Lemma fenc_bound v : valid F64 v = true -> fenc F64 v < 2 ^ 64.
Proof.
  intros V. destruct v as [[]|[]| |s m e]; [reflexivity..|].
  apply (bounded_iff F64 m e known64) in V. unfold fenc. cbn [f_mw f_ew F64] in *. change (2 ^ Z.of_N 52)%Z with 4503599627370496%Z in V.
  change (2 ^ 52) with 4503599627370496. change (f_emin F64) with (-1074)%Z in *. change (f_emax F64 - f_prec F64)%Z with 971%Z in V.
  change (2 ^ (52 + 11)) with 9223372036854775808. change (2 ^ 64) with 18446744073709551616.
  destruct (N.ltb_spec (N.pos m) 4503599627370496); destruct s; lia.
Qed.
Lemma valid_op2 (op : Z -> Z -> spec_float -> spec_float -> spec_float) (bop : binary_float 53 1024 -> binary_float 53 1024 -> binary_float 53 1024) a b :
  (forall x y, op 53%Z 1024%Z (B2SF x) (B2SF y) = B2SF (bop x y)) -> fop2 F64 op a b < 2 ^ 64.
Proof.
  intros E. unfold fop2. destruct (as_float F64 known64 a) as (x & -> & _). destruct (as_float F64 known64 b) as (y & -> & _).
  change (f_prec F64) with 53%Z in *. change (f_emax F64) with 1024%Z in *. rewrite E. apply fenc_bound. apply valid_binary_B2SF.
Qed.
Lemma fadd_bound a b : fadd F64 a b < 2 ^ 64.
Proof. apply (valid_op2 SFadd (@Bplus 53 1024 (known_prec _ known64) (known_emax _ known64) mode_NE)). intros. apply add_equiv. Qed.

(** ** Rounded quotients of integers *)
Lemma quot_pos n d : (0 <= n < 2 ^ 53)%Z -> (0 < d)%Z -> (IZR d < bpow radix2 1024)%R ->
  Zfloor (RN F64 (IZR n / IZR d)) = (n / d)%Z.
Proof.
  intros N D DB. set (q := (n / d)%Z). assert (Q : (q * d <= n < (q + 1) * d)%Z) by (unfold q; nia).
  assert (Q0 : (0 <= q <= n)%Z) by (split; [apply Z.div_pos; lia|unfold q; nia]).
  assert (DR : (0 < IZR d)%R) by now apply IZR_lt.
  assert (NR : (0 <= IZR n)%R) by (apply IZR_le; lia).
  set (x := (IZR n / IZR d)%R). assert (XN : (x * IZR d = IZR n)%R) by (unfold x; field; lra).
  assert (X0 : (0 <= x)%R) by (apply Rmult_le_reg_r with (IZR d); lra).
  assert (VR : Valid_rnd ZnearestE) by apply valid_rnd_N.
  assert (VE : Valid_exp (FLT_exp (f_emin F64) (f_prec F64))) by (apply FLT_exp_valid; reflexivity).
  assert (L : (IZR q <= RN F64 x)%R).
  { rewrite <- (RN_int q) by lia. apply round_le; auto. apply Rmult_le_reg_r with (IZR d); auto. rewrite XN, <- mult_IZR. apply IZR_le. lia. }
  assert (U : (x <= IZR (q + 1) - / IZR d)%R).
  { apply Rmult_le_reg_r with (IZR d); auto. rewrite XN. replace ((IZR (q + 1) - / IZR d) * IZR d)%R with (IZR (q + 1) * IZR d - 1)%R by (field; lra).
    rewrite <- mult_IZR, <- minus_IZR. apply IZR_le. lia. }
  apply Zfloor_imp. split; [exact L|]. apply Rnot_le_lt. intros G.
  assert (E : (Rabs (RN F64 x - x) <= / 2 * ulp radix2 (FLT_exp (f_emin F64) (f_prec F64)) x)%R) by (apply error_le_half_ulp; auto).
  assert (E2 : (/ IZR d <= / 2 * ulp radix2 (FLT_exp (f_emin F64) (f_prec F64)) x)%R).
  { pose proof (Rinv_0_lt_compat _ DR). apply Rle_trans with (2 := E). rewrite Rabs_pos_eq by lra. lra. }
  change (f_emin F64) with (-1074)%Z in *. change (f_prec F64) with 53%Z in *.
  assert (PG : Prec_gt_0 53) by reflexivity.
  destruct (Rle_or_lt (bpow radix2 (-1074 + 53 - 1)) x) as [B|B].
  - pose proof (ulp_FLT_le radix2 (-1074) 53 x) as UL. rewrite (Rabs_pos_eq x) in UL by auto. specialize (UL B).
    assert (F : (/ IZR d <= / 2 * (x * bpow radix2 (1 - 53)))%R) by lra.
    assert (F2 : (1 <= / 2 * bpow radix2 (1 - 53) * IZR n)%R).
    { rewrite <- XN. apply Rmult_le_compat_r with (r := IZR d) in F; [|lra]. rewrite Rinv_l in F by lra. lra. }
    assert (F3 : (/ 2 * bpow radix2 (1 - 53) = / IZR (2 ^ 53))%R).
    { change (/ 2)%R with (bpow radix2 (-1)). rewrite <- bpow_plus. change (-1 + (1 - 53))%Z with (- (53))%Z. rewrite bpow_opp. reflexivity. }
    rewrite F3 in F2. assert (F4 : (IZR (2 ^ 53) <= IZR n)%R).
    { apply Rmult_le_compat_l with (r := IZR (2 ^ 53)) in F2; [|apply IZR_le; lia]. rewrite <- Rmult_assoc, Rinv_r, Rmult_1_l, Rmult_1_r in F2; [exact F2|]. apply IZR_neq. discriminate. }
    apply le_IZR in F4. lia.
  - rewrite ulp_FLT_small in E2; [| |rewrite Rabs_pos_eq by auto; apply Rlt_trans with (1 := B); apply bpow_lt; reflexivity]; [|reflexivity].
    assert (F : (1 <= / 2 * bpow radix2 (-1074) * IZR d)%R).
    { apply Rmult_le_compat_r with (r := IZR d) in E2; [|lra]. rewrite Rinv_l in E2 by lra. exact E2. }
    change (/ 2)%R with (bpow radix2 (-1)) in F. rewrite <- bpow_plus in F.
    assert (F2 : (bpow radix2 (-1 + -1074) * IZR d < bpow radix2 (-1 + -1074) * bpow radix2 1024)%R) by (apply Rmult_lt_compat_l; [apply bpow_gt_0|exact DB]).
    rewrite <- bpow_plus in F2. assert (F3 : (bpow radix2 (-1 + -1074 + 1024) < bpow radix2 0)%R) by (apply bpow_lt; reflexivity).
    change (bpow radix2 0) with 1%R in F3. lra.
Qed.
Lemma RN_opp x : RN F64 (- x) = (- RN F64 x)%R.
Proof. apply round_NE_opp. Qed.
Lemma RN_ge_0 x : (0 <= x)%R -> (0 <= RN F64 x)%R.
Proof.
  intros X. rewrite <- (RN_int 0) by (cbn; lia). apply round_le; auto; [apply FLT_exp_valid; reflexivity|apply valid_rnd_N].
Qed.
Lemma quot_real n d : (Z.abs n < 2 ^ 53)%Z -> (d <> 0)%Z -> (Rabs (IZR d) < bpow radix2 1024)%R ->
  Ztrunc (RN F64 (IZR n / IZR d)) = Z.quot n d.
Proof.
  intros N D DB. rewrite <- abs_IZR in DB.
  assert (P : forall n d, (0 <= n < 2 ^ 53)%Z -> (0 < d)%Z -> (IZR d < bpow radix2 1024)%R -> Ztrunc (RN F64 (IZR n / IZR d)) = Z.quot n d).
  { clear. intros n d N D DB. rewrite Ztrunc_floor; [|apply RN_ge_0; apply Rmult_le_reg_r with (IZR d); [now apply IZR_lt|]].
    - rewrite quot_pos by auto. symmetry. apply Z.quot_div_nonneg; lia.
    - rewrite Rmult_0_l. unfold Rdiv. rewrite Rmult_assoc, Rinv_l, Rmult_1_r; [apply IZR_le; lia|]. apply IZR_neq. lia. }
  assert (DR : IZR d <> 0%R) by (apply IZR_neq; auto).
  destruct (Z.le_gt_cases 0 n) as [SN|SN], (Z.le_gt_cases 0 d) as [SD|SD]; rewrite ?(Z.abs_eq d), ?(Z.abs_neq d) in DB by lia.
  - apply P; auto; lia.
  - replace (IZR n / IZR d)%R with (- (IZR n / IZR (- d)))%R by (rewrite opp_IZR; field; lra). rewrite RN_opp, Ztrunc_opp, P by (auto; lia).
    rewrite Z.quot_opp_r by lia. lia.
  - replace (IZR n / IZR d)%R with (- (IZR (- n) / IZR d))%R by (rewrite opp_IZR; field; lra). rewrite RN_opp, Ztrunc_opp, P by (auto; lia).
    rewrite Z.quot_opp_l by lia. lia.
  - replace (IZR n / IZR d)%R with (IZR (- n) / IZR (- d))%R by (rewrite !opp_IZR; field; lra). rewrite P by (auto; lia).
    rewrite Z.quot_opp_opp by lia. reflexivity.
Qed.

(** ** The field instruction *)
Lemma fits_range t z : fits (wbytes (i_w t)) (i_signed t) z <-> (imin t <= z <= imax t)%Z.
Proof.
  unfold fits, imin, imax. destruct (i_signed t); lia.
Qed.
Lemma to_int_real f (K : known f) t x : finite f x -> fits (wbytes (i_w t)) (i_signed t) (Ztrunc (real f x)) ->
  f_to_int f (imin t) (imax t) x = Ok (Ztrunc (real f x)).
Proof.
  intros FX FT. unfold f_to_int. rewrite trunc_real by auto. apply fits_range in FT.
  destruct (Z.leb_spec (imin t) (Ztrunc (real f x))), (Z.leb_spec (Ztrunc (real f x)) (imax t)); try lia. reflexivity.
Qed.
Lemma to_int_ub f (K : known f) t x : finite f x -> ~ fits (wbytes (i_w t)) (i_signed t) (Ztrunc (real f x)) ->
  f_to_int f (imin t) (imax t) x = Ub UFloat.
Proof.
  intros FX FT. unfold f_to_int. rewrite trunc_real by auto. rewrite fits_range in FT.
  destruct (Z.leb_spec (imin t) (Ztrunc (real f x))), (Z.leb_spec (Ztrunc (real f x)) (imax t)); cbn [andb]; try reflexivity. exfalso. apply FT. lia.
Qed.
Lemma RN_word z : (Z.abs z <= 2 ^ 64)%Z -> in_range F64 (RN F64 (IZR z)).
Proof.
  intros B. unfold in_range. apply Rle_lt_trans with (bpow radix2 64); [|apply bpow_lt; reflexivity].
  apply abs_round_le_generic; [apply FLT_exp_valid; reflexivity|apply valid_rnd_N| |].
  - apply generic_format_bpow'; [apply FLT_exp_valid; reflexivity|]. cbv. discriminate.
  - rewrite <- abs_IZR. change (bpow radix2 64) with (IZR (2 ^ 64)). now apply IZR_le.
Qed.
Lemma number_bound n sg v : 1 <= n <= 8 -> v < 2 ^ (8 * n) -> (Z.abs (number n sg v) <= 2 ^ 64)%Z.
Proof.
  intros N V. assert (2 ^ (8 * n) <= 2 ^ 64) by (apply N.pow_le_mono_r; lia). unfold number.
  assert (E : (2 ^ (8 * Z.of_N n) = Z.of_N (2 ^ (8 * n)))%Z) by (rewrite N2Z.inj_pow; f_equal; lia).
  change (2 ^ 64)%Z with (Z.of_N (2 ^ 64)). destruct (sg && _); lia.
Qed.

Section Scale.
  Context (lm : libm) (bc : list N) (WB : wf_bytes bc) (fac off : N) (FF : finite F64 fac) (FO : finite F64 off).
  Lemma scale_decode d n raw : wf_bytes (buf d) -> type_bytes (opcode_at bc d) = Some n -> ip d + 3 <= lenN bc ->
    boff d < 8 -> md d = Dec -> tr d = TScale fac off -> byte_pos d + n <= lenN (buf d) ->
    number n (type_signed (opcode_at bc d)) (val_of (en d) (sub (buf d) (byte_pos d) n)) = raw ->
    let p := RN F64 (RN F64 (IZR raw) * real F64 fac) in in_range F64 p ->
    let e := RN F64 (p + real F64 off) in in_range F64 e ->
    exists v, v < 2 ^ 64 /\ finite F64 v /\ real F64 v = e /\
      forall H (host : H -> request -> H * reply) h h' r,
      let rq := ask (key_at bc d) 0x19 (cvar 8 v) (HField (opcode_at bc d) (tr d)) in
      host h rq = (h', r) -> r_ok r = true ->
      exists d', interp host (step lm bc d) h = (SCont d', h', [(rq, r)]) /\
        buf d' = buf d /\ position d' = 8 * (byte_pos d + n) /\ tr d' = TNone.
  Proof.
    intros WF HT HI B M T HL ER p RP e RE. destruct (type_int _ _ HT) as (w & IT & EW & _).
    set (t := {| i_w := w; i_signed := type_signed (opcode_at bc d) |}) in *.
    set (x := val_of (en d) (sub (buf d) (byte_pos d) n)) in *.
    assert (XB : x < 2 ^ (8 * n)).
    { replace (2 ^ (8 * n)) with (256 ^ n) by (rewrite N.pow_mul_r; reflexivity).
      pose proof (val_of_bound (en d) (sub (buf d) (byte_pos d) n) (wf_sub _ _ _ WF)) as V. rewrite lenN_sub in V by lia. exact V. }
    assert (RR : in_range F64 (RN F64 (IZR raw))) by (apply RN_word; rewrite <- ER; apply number_bound; auto; eapply type_bytes_bound; eauto).
    destruct (of_Z_real F64 known64 raw RR) as (F1 & R1).
    assert (RP' : in_range F64 (RN F64 (real F64 (f_of_Z F64 raw) * real F64 fac))) by (rewrite R1; exact RP).
    destruct (fmul_real F64 known64 _ _ F1 FF RP') as (F2 & R2). rewrite R1 in R2. fold p in R2.
    assert (RE' : in_range F64 (RN F64 (real F64 (fmul F64 (f_of_Z F64 raw) fac) + real F64 off))) by (rewrite R2; exact RE).
    destruct (fadd_real F64 known64 _ _ F2 FO RE') as (F3 & R3). rewrite R2 in R3. fold e in R3.
    exists (fadd F64 (fmul F64 (f_of_Z F64 raw) fac) off). split; [apply fadd_bound|]. split; [exact F3|]. split; [exact R3|].
    intros H host h h' r rq HH HR. set (v := fadd F64 _ off) in *.
    assert (EQ : rq = ask (key_at bc d) (eng_op (opcode_at bc d) (tr d)) (PInt (eng_w w (tr d)) v) (HField (opcode_at bc d) (tr d))).
    { unfold rq. rewrite T. reflexivity. }
    rewrite EQ in HH. pose proof (int_dec host lm bc WB d h h' r _ _ v eq_refl IT HI B M) as X. cbn [i_w] in X.
    change (i_w t) with w in X. rewrite EW in X. specialize (X HL WF HH HR).
    assert (IV : ival t x = raw) by (rewrite number_ival; cbn [t i_w i_signed]; now rewrite EW).
    rewrite T in X at 1. fold x in X. cbn [from_wire] in X. rewrite IV in X. specialize (X eq_refl).
    rewrite EQ. eexists. split; [exact X|]. unfold taken. cbn [buf tr]. split; auto. split; auto. unfold position; cbn [cur boff]; lia.
  Qed.

  Section Encode.
    Context {H : Type} (host : H -> request -> H * reply) (s : st) (h h' : H) (r : reply) (n v : N).
    Hypothesis (HT : type_bytes (opcode_at bc s) = Some n) (HI : ip s + 3 <= lenN bc) (B : boff s < 8) (M : md s = Enc)
      (T : tr s = TScale fac off) (HL : byte_pos s + n <= lenN (buf s)).
    Let rq := ask (key_at bc s) 0x19 (cvar 8 0) (HField (opcode_at bc s) (tr s)).
    Hypothesis (HH : host h rq = (h', r)) (HR : r_ok r = true) (HV : r_val r = Some v) (VB : v < 2 ^ 64) (FV : finite F64 v) (NZ : real F64 fac <> 0%R).
    Let a := RN F64 (real F64 v - real F64 off).
    Let q := RN F64 (a / real F64 fac).
    Hypothesis (RA : in_range F64 a) (RQ : in_range F64 q).
    Lemma scale_quot : finite F64 (fdiv F64 (fsub F64 v off) fac) /\ real F64 (fdiv F64 (fsub F64 v off) fac) = q.
    Proof.
      destruct (fsub_real F64 known64 v off FV FO RA) as (F1 & R1). fold a in R1.
      assert (RQ' : in_range F64 (RN F64 (real F64 (fsub F64 v off) / real F64 fac))) by (rewrite R1; exact RQ).
      destruct (fdiv_real F64 known64 _ _ F1 FF NZ RQ') as (F2 & R2). rewrite R1 in R2. auto.
    Qed.
    Lemma scale_got : got W8 0 r = v.
    Proof. rewrite answer_got. unfold answer. rewrite HV. now apply N.mod_small. Qed.
    Lemma scale_encode : fits n (type_signed (opcode_at bc s)) (Ztrunc q) ->
      exists s', interp host (step lm bc s) h = (SCont s', h', [(rq, r)]) /\
        sub (buf s') (byte_pos s) n = bytes_of (en s) (N.to_nat n) (ofZ n (Ztrunc q)) /\
        (forall i, i < byte_pos s \/ byte_pos s + n <= i -> nthN (buf s') i = nthN (buf s) i) /\
        position s' = 8 * (byte_pos s + n) /\ tr s' = TNone.
    Proof.
      intros FT. destruct (type_int _ _ HT) as (w & IT & EW & _).
      set (t := {| i_w := w; i_signed := type_signed (opcode_at bc s) |}) in *.
      assert (EQ : rq = ask (key_at bc s) (eng_op (opcode_at bc s) (tr s)) (PInt (eng_w w (tr s)) 0) (HField (opcode_at bc s) (tr s))).
      { unfold rq. rewrite T. reflexivity. }
      pose proof HH as HH'. rewrite EQ in HH'. pose proof (fun raw => int_enc host lm bc WB s h h' r _ _ raw eq_refl IT HI B M) as X. cbn [i_w] in X.
      change (i_w t) with w in X. rewrite EW in X. specialize (X (ofZ n (Ztrunc q)) HL HH' HR).
      assert (TW : to_wire t (tr s) (got (eng_w w (tr s)) 0 r) = Ok (ofZ n (Ztrunc q))).
      { rewrite T. cbn [eng_w to_wire]. rewrite scale_got. unfold f64_to_ity. destruct scale_quot as (FQ & EQQ).
        rewrite (to_int_real F64 known64 t); [|exact FQ|rewrite EQQ; cbn [t i_w i_signed]; rewrite EW; exact FT]. rewrite EQQ.
        cbn [bindR]. change (i_w t) with w. now rewrite EW. }
      assert (X' := X TW). clear X. rewrite EQ. eexists. split; [exact X'|].
      unfold stored. cbn [buf tr].
      assert (LB : lenN (bytes_of (en s) (N.to_nat n) (ofZ n (Ztrunc q))) = n) by (rewrite lenN_bytes_of; lia).
      split.
      { pose proof (sub_put_here (buf s) (byte_pos s) (bytes_of (en s) (N.to_nat n) (ofZ n (Ztrunc q))) ltac:(lia)) as Y.
        rewrite LB in Y. exact Y. }
      split.
      { intros i Hi. rewrite nthN_put by lia.
        destruct (N.leb_spec (byte_pos s) i), (N.ltb_spec i (byte_pos s + lenN (bytes_of (en s) (N.to_nat n) (ofZ n (Ztrunc q))))); cbn; auto; lia. }
      split; [unfold position; cbn [cur boff]; lia|auto].
    Qed.
    Lemma scale_overflow : ~ fits n (type_signed (opcode_at bc s)) (Ztrunc q) ->
      interp host (step lm bc s) h = (SUndef UFloat, h', [(rq, r)]).
    Proof.
      intros FT. destruct (type_int _ _ HT) as (w & IT & EW & _).
      set (t := {| i_w := w; i_signed := type_signed (opcode_at bc s) |}) in *.
      destruct (int_class _ _ IT) as [EC EA]. erewrite step_at by (eauto; lia). rewrite align_eq by auto. rewrite byte_pos_ip.
      unfold exec_op. rewrite EC. unfold io_int, io_scalar.
      cbn [ip set_ip set_boff set_cur tr md buf cur en lift]. rewrite key_eq by auto. cbn [lift].
      unfold dlen. cbn [ip set_ip set_boff set_cur tr md buf cur en opt]. change (i_w t) with w. rewrite EW.
      destruct (N.ltb_spec (lenN (buf s)) (byte_pos s + n)); [lia|]. rewrite M.
      unfold rq in HH |- *. rewrite T in *. cbn [eng_op eng_w]. change (cvar 8 0) with (PInt W8 0) in HH |- *.
      erewrite interp_call; [|exact HH|exact HR]. rewrite scale_got. cbn [to_wire]. unfold f64_to_ity. destruct scale_quot as (FQ & EQQ).
      rewrite (to_int_ub F64 known64 t); [reflexivity|exact FQ|]. rewrite EQQ. cbn [t i_w i_signed]. now rewrite EW.
    Qed.
  End Encode.
End Scale.

Lemma scale_setup {H} (host : H -> request -> H * reply) lm bc s h : wf_bytes bc -> ip s + 17 <= lenN bc -> opcode_at bc s = 0x43 ->
  interp host (step lm bc s) h = (SCont (set_tr (set_ip s (ip s + 17)) (TScale (operand_at bc s 1 8) (operand_at bc s 9 8))), h, []).
Proof.
  intros WB HI HO.
  assert (F : fetch W8 bc (ip s + 1) = Ok (operand_at bc s 1 8, ip s + 9)).
  { rewrite fetch_at by (auto; cbn [wbytes]; lia). unfold operand_at. cbn [wbytes]. replace (ip s + 1 + 8) with (ip s + 9) by lia. reflexivity. }
  assert (F2 : fetch W8 bc (ip s + 9) = Ok (operand_at bc s 9 8, ip s + 17)).
  { rewrite fetch_at by (auto; cbn [wbytes]; lia). unfold operand_at. cbn [wbytes]. replace (ip s + 9 + 8) with (ip s + 17) by lia. reflexivity. }
  rewrite (step_at lm bc s _ ltac:(lia) HO), align_no by reflexivity. unfold exec_op.
  match goal with |- context [classify ?x] => let y := eval vm_compute in (classify x) in change (classify x) with y end.
  cbv iota. unfold scale_lin. cbn [ip set_ip]. rewrite F. cbn [lift]. rewrite F2. cbn [lift interp]. reflexivity.
Qed.

(** ** Integer and exact factors *)
Lemma quot_in_range n d : (Z.abs n <= 2 ^ 53)%Z -> (d <> 0)%Z -> in_range F64 (RN F64 (IZR n / IZR d)).
Proof.
  intros N D. unfold in_range. apply Rle_lt_trans with (bpow radix2 53); [|apply bpow_lt; reflexivity].
  apply abs_round_le_generic; [apply FLT_exp_valid; reflexivity|apply valid_rnd_N| |].
  - apply generic_format_bpow'; [apply FLT_exp_valid; reflexivity|]. cbv. discriminate.
  - assert (DR : (1 <= Rabs (IZR d))%R) by (rewrite <- abs_IZR; apply IZR_le; lia).
    assert (NR : (Rabs (IZR n) <= bpow radix2 53)%R) by (rewrite <- abs_IZR; change (bpow radix2 53) with (IZR (2 ^ 53)); now apply IZR_le).
    assert (IZR d <> 0)%R by (apply IZR_neq; auto). unfold Rdiv. rewrite Rabs_mult, Rabs_inv.
    apply Rmult_le_reg_r with (Rabs (IZR d)); [lra|]. rewrite Rmult_assoc, Rinv_l by (apply Rabs_no_R0; auto). rewrite Rmult_1_r.
    pose proof (bpow_gt_0 radix2 53). nra.
Qed.
Lemma one_real : real F64 0x3FF0000000000000 = 1%R /\ finite F64 0x3FF0000000000000.
Proof.
  split; [|reflexivity]. unfold real. change (fdec F64 0x3FF0000000000000) with (S754_finite false (2 ^ 52) (-52)). cbn [SF2R cond_Zopp].
  unfold F2R. cbn [Fnum Fexp]. change (IZR (Z.pos (2 ^ 52))) with (bpow radix2 52). rewrite <- bpow_plus. reflexivity.
Qed.
Lemma zero_real : real F64 0 = 0%R /\ finite F64 0.
Proof. split; reflexivity. Qed.
