(** Floating-point patterns and real numbers. *)
From Coq Require Import Reals Floats.SpecFloat Lra.
From Flocq Require Import Core BinarySingleNaN.
From Coq Require Import ZifyBool ZifyNat ZifyN.
From Verif Require Import Base ModelFloat SpecReal.

Lemma nearest_even s m l : round_nearest_even m l = choice_mode mode_NE s m l.
Proof. case l; [reflexivity|intro c]. case c; [|reflexivity..]. now simpl; unfold Round.cond_incr; case Z.even. Qed.
Section Ops.
  Context (prec emax : Z) (PG : Prec_gt_0 prec) (PL : Prec_lt_emax prec emax).
  Let B := binary_float prec emax.
  Lemma round_aux_equiv sx mx ex lx : SpecFloat.binary_round_aux prec emax sx mx ex lx = binary_round_aux prec emax mode_NE sx mx ex lx.
  Proof.
    unfold SpecFloat.binary_round_aux, binary_round_aux. set (mrse' := shr_fexp _ _ _). case mrse'; intros mrs' e'; simpl.
    now rewrite (nearest_even sx).
  Qed.
  Lemma round_equiv s m e : SpecFloat.binary_round prec emax s m e = binary_round prec emax mode_NE s m e.
  Proof. unfold SpecFloat.binary_round, binary_round, shl_align_fexp. set (mez := shl_align _ _ _); case mez as [mz ez]. apply round_aux_equiv. Qed.
  Lemma normalize_equiv m e szero : SpecFloat.binary_normalize prec emax m e szero = B2SF (binary_normalize prec emax PG PL mode_NE m e szero).
  Proof. case m as [|p|p]; [now simpl|simpl; rewrite B2SF_SF2B; apply round_equiv..]. Qed.
  Lemma mul_equiv (x y : B) : SFmul prec emax (B2SF x) (B2SF y) = B2SF (Bmult mode_NE x y).
  Proof.
    case x as [sx|sx| |sx mx ex Bx]; case y as [sy|sy| |sy my ey By]; [now trivial..|].
    simpl. rewrite B2SF_SF2B. apply round_aux_equiv.
  Qed.
  Lemma add_equiv (x y : B) : SFadd prec emax (B2SF x) (B2SF y) = B2SF (Bplus mode_NE x y).
  Proof.
    case x as [sx|sx| |sx mx ex Bx]; case y as [sy|sy| |sy my ey By]; [now (trivial || simpl; case Bool.eqb)..|].
    apply normalize_equiv.
  Qed.
  Lemma sub_equiv (x y : B) : SFsub prec emax (B2SF x) (B2SF y) = B2SF (Bminus mode_NE x y).
  Proof.
    case x as [sx|sx| |sx mx ex Bx]; case y as [sy|sy| |sy my ey By]; [now (trivial || simpl; case Bool.eqb)..|].
    simpl. unfold Zminus. rewrite <- cond_Zopp_negb. apply normalize_equiv.
  Qed.
  Lemma div_equiv (x y : B) : SFdiv prec emax (B2SF x) (B2SF y) = B2SF (Bdiv mode_NE x y).
  Proof.
    case x as [sx|sx| |sx mx ex Bx]; case y as [sy|sy| |sy my ey By]; [now (trivial || simpl; case Bool.eqb)..|].
    simpl. rewrite B2SF_SF2B. set (melz := SFdiv_core_binary _ _ _ _ _ _). case melz as [[mz ez] lz]. apply round_aux_equiv.
  Qed.
End Ops.

(** ** The two formats *)
Definition known (f : fmt) : Prop := f = F32 \/ f = F64.
Lemma known_prec f : known f -> Prec_gt_0 (f_prec f).
Proof. intros [-> | ->]; reflexivity. Qed.
Lemma known_emax f : known f -> Prec_lt_emax (f_prec f) (f_emax f).
Proof. intros [-> | ->]; reflexivity. Qed.
Lemma digits_bounds m : (2 ^ (Zpos (digits2_pos m) - 1) <= Zpos m < 2 ^ Zpos (digits2_pos m))%Z.
Proof.
  rewrite Zpos_digits2_pos. pose proof (Zdigits_correct radix2 (Zpos m)) as C. change (Z.abs (Zpos m)) with (Zpos m) in C.
  change (radix_val radix2) with 2%Z in C. exact C.
Qed.
Lemma digits_is m d : (2 ^ (d - 1) <= Zpos m < 2 ^ d)%Z -> Zpos (digits2_pos m) = d.
Proof. intros B. rewrite Zpos_digits2_pos. apply Zdigits_unique. change (Z.abs (Zpos m)) with (Zpos m). exact B. Qed.
Lemma digits_le m d : (0 <= d)%Z -> (Zpos m < 2 ^ d)%Z -> (Zpos (digits2_pos m) <= d)%Z.
Proof.
  intros D B. pose proof (digits_bounds m) as C. destruct (Z.le_gt_cases (Zpos (digits2_pos m)) d) as [L|L]; auto.
  exfalso. assert (2 ^ d <= 2 ^ (Zpos (digits2_pos m) - 1))%Z by (apply Z.pow_le_mono_r; lia). lia.
Qed.

Lemma bounded_iff f m e : known f -> bounded (f_prec f) (f_emax f) m e = true <->
  (2 ^ Z.of_N (f_mw f) <= Zpos m < 2 * 2 ^ Z.of_N (f_mw f) /\ f_emin f <= e <= f_emax f - f_prec f)%Z \/
  (Zpos m < 2 ^ Z.of_N (f_mw f) /\ e = f_emin f)%Z.
Proof.
  intros K. unfold bounded, canonical_mantissa, SpecFloat.fexp, SpecFloat.emin.
  pose proof (digits_bounds m) as D. set (d := Zpos (digits2_pos m)) in *.
  assert (D0 : (1 <= d)%Z) by (unfold d; lia).
  unfold f_emin. set (P := f_prec f). set (X := f_emax f). assert (EP : (P = Z.of_N (f_mw f) + 1)%Z) by reflexivity.
  assert (XP : (P < X)%Z) by (apply known_emax; auto). assert (M0 : (0 <= Z.of_N (f_mw f))%Z) by lia. set (w := Z.of_N (f_mw f)) in *.
  rewrite andb_true_iff, <- Zeq_is_eq_bool, Z.leb_le.
  assert (G1 : (2 ^ w <= Zpos m)%Z -> (w + 1 <= d)%Z).
  { intros L. destruct (Z.le_gt_cases (w + 1) d); auto. exfalso. assert (2 ^ d <= 2 ^ w)%Z by (apply Z.pow_le_mono_r; lia). lia. }
  assert (G2 : (Zpos m < 2 ^ (w + 1))%Z -> (d <= w + 1)%Z) by (intros; apply digits_le; lia).
  assert (G3 : (Zpos m < 2 ^ w)%Z -> (d <= w)%Z) by (intros; apply digits_le; lia).
  rewrite Z.pow_add_r in G2 by lia. change (2 ^ 1)%Z with 2%Z in G2.
  split.
  - intros (A & L). destruct (Z.le_gt_cases (2 ^ w) (Zpos m)) as [C|C]; [left|right; split; auto; specialize (G3 C); lia].
    specialize (G1 C). assert (DP : (d = w + 1)%Z) by lia. split; [|lia]. split; [exact C|]. destruct D as (_ & D). rewrite DP, Z.pow_add_r in D by lia. lia.
  - intros [((A & A') & L)|(A & ->)].
    + specialize (G1 A). assert (d = w + 1)%Z by lia. lia.
    + specialize (G3 A). lia.
Qed.
Local Ltac Zify.zify_post_hook ::= Z.div_mod_to_equations.
Notation valid f := (valid_binary (f_prec f) (f_emax f)).
Lemma fdec_valid f x : known f -> valid f (fdec f x) = true.
Proof.
  intros K. unfold fdec. set (man := x mod 2 ^ f_mw f). set (ex := x / 2 ^ f_mw f mod 2 ^ f_ew f). set (s := N.odd _).
  assert (Z2 : 2 ^ f_mw f <> 0) by (apply N.pow_nonzero; discriminate). assert (Z3 : 2 ^ f_ew f <> 0) by (apply N.pow_nonzero; discriminate).
  assert (MB : man < 2 ^ f_mw f) by (apply N.mod_lt; auto). assert (EB : ex < 2 ^ f_ew f) by (apply N.mod_lt; auto).
  clearbody man ex s. assert (E2 : (2 ^ Z.of_N (f_mw f) = Z.of_N (2 ^ f_mw f))%Z) by (rewrite N2Z.inj_pow; reflexivity).
  destruct (N.eqb_spec ex 0) as [E0|E0].
  - destruct man as [|m]; [reflexivity|]. apply (bounded_iff f); auto. right. split; [lia|reflexivity].
  - destruct (N.eqb_spec ex (2 ^ f_ew f - 1)) as [E1|E1]; [destruct (man =? 0); reflexivity|].
    destruct (man + 2 ^ f_mw f) as [|m] eqn:EM; [reflexivity|]. apply (bounded_iff f); auto. left. split; [lia|].
    split; [lia|]. unfold f_emin. destruct K as [-> | ->]; cbn in EB, E1 |- *; lia.
Qed.
Lemma odd_bit (s : bool) r P : r < P -> N.odd (((if s then P else 0) + r) / P) = s.
Proof.
  intros L. destruct s.
  - replace (P + r) with (r + 1 * P) by lia. rewrite N.div_add, N.div_small by lia. reflexivity.
  - cbn. rewrite N.div_small by lia. reflexivity.
Qed.
Lemma fdec_parts f (s : bool) ex man : man < 2 ^ f_mw f -> ex < 2 ^ f_ew f ->
  let x := (if s then 2 ^ (f_mw f + f_ew f) else 0) + man + ex * 2 ^ f_mw f in
  x mod 2 ^ f_mw f = man /\ (x / 2 ^ f_mw f) mod 2 ^ f_ew f = ex /\ N.odd (x / 2 ^ (f_mw f + f_ew f)) = s.
Proof.
  intros M E x. assert (Z2 : 2 ^ f_mw f <> 0) by (apply N.pow_nonzero; discriminate). assert (Z3 : 2 ^ f_ew f <> 0) by (apply N.pow_nonzero; discriminate).
  set (P := 2 ^ f_mw f) in *. set (Q := 2 ^ f_ew f) in *. assert (PQ : 2 ^ (f_mw f + f_ew f) = Q * P) by (rewrite N.pow_add_r; apply N.mul_comm).
  assert (XE : x = man + ((if s then Q else 0) + ex) * P) by (unfold x; rewrite PQ; destruct s; lia).
  split; [rewrite XE, N.mod_add by auto; now apply N.mod_small|]. split.
  - rewrite XE, N.div_add, N.div_small by auto. rewrite N.add_0_l. destruct s; [|now apply N.mod_small].
    rewrite N.add_comm. replace (ex + Q) with (ex + 1 * Q) by lia. rewrite N.mod_add by auto. now apply N.mod_small.
  - unfold x. rewrite <- N.add_assoc. apply odd_bit. rewrite PQ. assert (ex * P <= (Q - 1) * P) by (apply N.mul_le_mono_r; lia). nia.
Qed.
Lemma fdec_fenc f v : known f -> valid f v = true -> fdec f (fenc f v) = v.
Proof.
  intros K V. assert (Z2 : 2 ^ f_mw f <> 0) by (apply N.pow_nonzero; discriminate).
  assert (Q2 : 4 <= 2 ^ f_ew f) by (destruct K as [-> | ->]; cbn; lia).
  assert (E2 : (2 ^ Z.of_N (f_mw f) = Z.of_N (2 ^ f_mw f))%Z) by (rewrite N2Z.inj_pow; reflexivity).
  destruct v as [s|s| |s m e].
  - destruct (fdec_parts f s 0 0 ltac:(lia) ltac:(lia)) as (A & B & C). cbv zeta in A, B, C. rewrite N.add_0_r in *. cbn [N.mul] in A, B, C. rewrite N.add_0_r in *.
    unfold fdec, fenc. rewrite A, B, C. reflexivity.
  - destruct (fdec_parts f s (2 ^ f_ew f - 1) 0 ltac:(lia) ltac:(lia)) as (A & B & C). cbv zeta in A, B, C. rewrite N.add_0_r in *.
    unfold fdec, fenc. rewrite A, B, C. destruct (N.eqb_spec (2 ^ f_ew f - 1) 0); [lia|]. now rewrite N.eqb_refl.
  - assert (H2 : 2 ^ (f_mw f - 1) < 2 ^ f_mw f) by (apply N.pow_lt_mono_r; destruct K as [-> | ->]; cbn; lia).
    destruct (fdec_parts f false (2 ^ f_ew f - 1) (2 ^ (f_mw f - 1)) ltac:(lia) ltac:(lia)) as (A & B & C). cbv zeta in A, B, C. rewrite N.add_0_l in *. rewrite N.add_comm in A, B, C.
    unfold fdec, fenc. rewrite A, B, C. destruct (N.eqb_spec (2 ^ f_ew f - 1) 0); [lia|]. rewrite N.eqb_refl.
    destruct (N.eqb_spec (2 ^ (f_mw f - 1)) 0) as [X|X]; [|reflexivity]. exfalso. revert X. apply N.pow_nonzero. discriminate.
  - apply (bounded_iff f m e K) in V as [(M & E)|(M & E)].
    + set (ex := Z.to_N (e - f_emin f + 1)). assert (EX : 1 <= ex < 2 ^ f_ew f - 1).
      { unfold ex, f_emin in *. destruct K as [-> | ->]; cbn in E |- *; lia. }
      destruct (fdec_parts f s ex (Npos m - 2 ^ f_mw f) ltac:(lia) ltac:(lia)) as (A & B & C). cbv zeta in A, B, C.
      unfold fdec, fenc. destruct (N.ltb_spec (Npos m) (2 ^ f_mw f)); [lia|]. fold ex. rewrite A, B, C.
      destruct (N.eqb_spec ex 0); [lia|]. destruct (N.eqb_spec ex (2 ^ f_ew f - 1)); [lia|].
      replace (N.pos m - 2 ^ f_mw f + 2 ^ f_mw f) with (N.pos m) by lia. f_equal. unfold ex. lia.
    + destruct (fdec_parts f s 0 (Npos m) ltac:(lia) ltac:(lia)) as (A & B & C). cbv zeta in A, B, C. cbn [N.mul] in A, B, C. rewrite N.add_0_r in *.
      unfold fdec, fenc. destruct (N.ltb_spec (Npos m) (2 ^ f_mw f)); [|lia]. rewrite A, B, C. cbn [N.eqb]. now subst e.
Qed.

(** ** Operations *)
Section Real.
  Context (f : fmt) (K : known f).
  Local Instance PG : Prec_gt_0 (f_prec f) := known_prec f K.
  Local Instance PL : Prec_lt_emax (f_prec f) (f_emax f) := known_emax f K.
  Let BF := binary_float (f_prec f) (f_emax f).
  (** The pattern of a number *)
  Lemma as_float x : exists b : BF, fdec f x = B2SF b /\ real f x = B2R b /\ (finite f x <-> is_finite b = true).
  Proof.
    pose proof (fdec_valid f x K) as V. exists (SF2B _ V). rewrite B2SF_SF2B, B2R_SF2B. unfold real, finite.
    split; [reflexivity|]. split; [reflexivity|]. now rewrite is_finite_SF2B.
  Qed.
  Lemma of_float (b : BF) : fdec f (fenc f (B2SF b)) = B2SF b /\ real f (fenc f (B2SF b)) = B2R b /\ (finite f (fenc f (B2SF b)) <-> is_finite b = true).
  Proof.
    assert (E : fdec f (fenc f (B2SF b)) = B2SF b) by (apply fdec_fenc; auto; apply valid_binary_B2SF).
    unfold real, finite. rewrite E, SF2R_B2SF. split; [reflexivity|]. split; [reflexivity|]. destruct b; cbn; tauto.
  Qed.
  Lemma RN_round r : RN f r = round radix2 (SpecFloat.fexp (f_prec f) (f_emax f)) (round_mode mode_NE) r.
  Proof. reflexivity. Qed.

  Lemma fadd_real a b : finite f a -> finite f b -> in_range f (RN f (real f a + real f b)) ->
    finite f (fadd f a b) /\ real f (fadd f a b) = RN f (real f a + real f b).
  Proof.
    intros FA FB R. destruct (as_float a) as (x & EX & RX & FX). destruct (as_float b) as (y & EY & RY & FY).
    unfold fadd, fop2. rewrite EX, EY, add_equiv with (PG := PG) (PL := PL). destruct (of_float (Bplus mode_NE x y)) as (_ & -> & ->).
    pose proof (Bplus_correct _ _ PG PL mode_NE x y (proj1 FX FA) (proj1 FY FB)) as C. rewrite <- RX, <- RY, <- RN_round in C.
    rewrite Rlt_bool_true in C by exact R. tauto.
  Qed.
  Lemma fsub_real a b : finite f a -> finite f b -> in_range f (RN f (real f a - real f b)) ->
    finite f (fsub f a b) /\ real f (fsub f a b) = RN f (real f a - real f b).
  Proof.
    intros FA FB R. destruct (as_float a) as (x & EX & RX & FX). destruct (as_float b) as (y & EY & RY & FY).
    unfold fsub, fop2. rewrite EX, EY, sub_equiv with (PG := PG) (PL := PL). destruct (of_float (Bminus mode_NE x y)) as (_ & -> & ->).
    pose proof (Bminus_correct _ _ PG PL mode_NE x y (proj1 FX FA) (proj1 FY FB)) as C. rewrite <- RX, <- RY, <- RN_round in C.
    rewrite Rlt_bool_true in C by exact R. tauto.
  Qed.
  Lemma fmul_real a b : finite f a -> finite f b -> in_range f (RN f (real f a * real f b)) ->
    finite f (fmul f a b) /\ real f (fmul f a b) = RN f (real f a * real f b).
  Proof.
    intros FA FB R. destruct (as_float a) as (x & EX & RX & FX). destruct (as_float b) as (y & EY & RY & FY).
    unfold fmul, fop2. rewrite EX, EY, mul_equiv with (PG := PG) (PL := PL). destruct (of_float (Bmult mode_NE x y)) as (_ & -> & ->).
    pose proof (Bmult_correct _ _ PG PL mode_NE x y) as C. rewrite <- RX, <- RY, <- RN_round in C.
    rewrite Rlt_bool_true in C by exact R. rewrite (proj1 FX FA), (proj1 FY FB) in C. tauto.
  Qed.
  Lemma fdiv_real a b : finite f a -> finite f b -> real f b <> 0%R -> in_range f (RN f (real f a / real f b)) ->
    finite f (fdiv f a b) /\ real f (fdiv f a b) = RN f (real f a / real f b).
  Proof.
    intros FA FB NZ R. destruct (as_float a) as (x & EX & RX & FX). destruct (as_float b) as (y & EY & RY & FY).
    unfold fdiv, fop2. rewrite EX, EY, div_equiv with (PG := PG) (PL := PL). destruct (of_float (Bdiv mode_NE x y)) as (_ & -> & ->).
    rewrite RY in NZ. pose proof (Bdiv_correct _ _ PG PL mode_NE x y NZ) as C. rewrite <- RX, <- RY, <- RN_round in C.
    rewrite Rlt_bool_true in C by exact R. rewrite (proj1 FX FA) in C. tauto.
  Qed.
  Lemma normal_real m e s : in_range f (RN f (F2R (Float radix2 m e))) ->
    finite f (fenc f (SpecFloat.binary_normalize (f_prec f) (f_emax f) m e s)) /\
    real f (fenc f (SpecFloat.binary_normalize (f_prec f) (f_emax f) m e s)) = RN f (F2R (Float radix2 m e)).
  Proof.
    intros R. rewrite normalize_equiv with (PG := PG) (PL := PL). destruct (of_float (binary_normalize _ _ PG PL mode_NE m e s)) as (_ & -> & ->).
    pose proof (binary_normalize_correct _ _ PG PL mode_NE m e s) as C. cbv zeta in C. rewrite <- RN_round, Rlt_bool_true in C by exact R. tauto.
  Qed.
  Lemma of_Z_real z : in_range f (RN f (IZR z)) -> finite f (f_of_Z f z) /\ real f (f_of_Z f z) = RN f (IZR z).
  Proof.
    intros R. unfold f_of_Z. assert (E : F2R (Float radix2 z 0) = IZR z) by (unfold F2R; cbn; lra). rewrite <- E in *. now apply normal_real.
  Qed.
  Lemma trunc_real x : finite f x -> f_trunc f x = Some (Ztrunc (real f x)).
  Proof.
    unfold f_trunc, real, finite. destruct (fdec f x) as [s|s| |s m e]; intros F; try discriminate; cbn [SF2R].
    - now rewrite Ztrunc_IZR.
    - f_equal. assert (A : (0 <= F2R (Float radix2 (Zpos m) e))%R) by now apply F2R_ge_0.
      assert (T : Ztrunc (F2R (Float radix2 (Zpos m) e)) = (if 0 <=? e then Zpos m * 2 ^ e else Zpos m / 2 ^ (- e))%Z).
      { destruct (Z.leb_spec 0 e).
        - replace (F2R (Float radix2 (Zpos m) e)) with (IZR (Zpos m * 2 ^ e)) by (unfold F2R; cbn [Fnum Fexp]; rewrite mult_IZR, <- IZR_Zpower by auto; reflexivity).
          apply Ztrunc_IZR.
        - rewrite Ztrunc_floor by auto. unfold F2R; cbn [Fnum Fexp]. replace e with (- (- e))%Z at 1 by lia. rewrite bpow_opp, <- IZR_Zpower by lia.
          apply Zfloor_div. change (radix_val radix2) with 2%Z. assert (0 < 2 ^ (- e))%Z by (apply Z.pow_pos_nonneg; lia). lia. }
      destruct s; cbn [cond_Zopp]; [|now rewrite T].
      change (Z.neg m) with (- Zpos m)%Z. rewrite F2R_Zopp, Ztrunc_opp, T. reflexivity.
  Qed.
End Real.
Lemma compare_real f (K : known f) a b : finite f a -> finite f b -> SFcompare (fdec f a) (fdec f b) = Some (Rcompare (real f a) (real f b)).
Proof.
  intros FA FB. destruct (as_float f K a) as (x & EX & RX & FX). destruct (as_float f K b) as (y & EY & RY & FY).
  pose proof (known_prec f K). pose proof (known_emax f K).
  rewrite EX, EY, RX, RY. apply (Bcompare_correct _ _ x y (proj1 FX FA) (proj1 FY FB)).
Qed.
Lemma flt_real f (K : known f) a b : finite f a -> finite f b -> flt f a b = true <-> (real f a < real f b)%R.
Proof. intros FA FB. unfold flt, SFltb. rewrite compare_real by auto. destruct (Rcompare_spec (real f a) (real f b)); split; intros; try discriminate; auto; lra. Qed.
Lemma fle_real f (K : known f) a b : finite f a -> finite f b -> fle f a b = true <-> (real f a <= real f b)%R.
Proof. intros FA FB. unfold fle, SFleb. rewrite compare_real by auto. destruct (Rcompare_spec (real f a) (real f b)); split; intros; try discriminate; auto; lra. Qed.
Lemma feq_real f (K : known f) a b : finite f a -> finite f b -> feq f a b = true <-> (real f a = real f b)%R.
Proof. intros FA FB. unfold feq, SFeqb. rewrite compare_real by auto. destruct (Rcompare_spec (real f a) (real f b)); split; intros; try discriminate; auto; lra. Qed.
Lemma conv_real f (K : known f) g a : finite g a -> in_range f (RN f (real g a)) ->
  finite f (f_conv g f a) /\ real f (f_conv g f a) = RN f (real g a).
Proof.
  unfold f_conv, real at 1 3, finite at 1. destruct (fdec g a) as [s|s| |s m e] eqn:E; intros FA R; try discriminate.
  - pose proof (fdec_fenc f (S754_zero s) K eq_refl) as D. unfold finite, real. rewrite D. cbn. split; [reflexivity|].
    unfold RN. rewrite round_0; [reflexivity|]. apply valid_rnd_N.
  - cbn [SF2R] in *. replace (if s then Z.neg m else Z.pos m) with (cond_Zopp s (Z.pos m)) by (destruct s; reflexivity). now apply normal_real.
Qed.
Lemma real_bound f (K : known f) a : (Rabs (real f a) < bpow radix2 (f_emax f))%R.
Proof.
  pose proof (known_prec f K). pose proof (known_emax f K).
  destruct (as_float f K a) as (x & EX & -> & FX). apply abs_B2R_lt_emax.
Qed.
Lemma real_format f (K : known f) a : RN f (real f a) = real f a.
Proof.
  pose proof (known_prec f K). pose proof (known_emax f K).
  destruct (as_float f K a) as (x & EX & -> & FX). unfold RN. apply round_generic; [apply valid_rnd_N|].
  exact (generic_format_B2R _ _ x).
Qed.

(** ** Integers in doubles *)
Lemma RN_int z : (Z.abs z <= 2 ^ 53)%Z -> RN F64 (IZR z) = IZR z.
Proof.
  intros B. unfold RN. apply round_generic; [apply valid_rnd_N|]. destruct (Z.eq_dec (Z.abs z) (2 ^ 53)) as [E|E].
  - assert (G : generic_format radix2 (FLT_exp (f_emin F64) (f_prec F64)) (IZR (2 ^ 53))).
    { change (IZR (2 ^ 53)) with (bpow radix2 53). apply generic_format_bpow'; [apply FLT_exp_valid; reflexivity|]. cbv. discriminate. }
    destruct (Z.abs_eq_or_opp z) as [A|A]; rewrite E in A.
    + now rewrite <- A.
    + replace z with (- 2 ^ 53)%Z by lia. rewrite opp_IZR. now apply generic_format_opp.
  - apply generic_format_FLT. exists (Float radix2 z 0); cbn [Fnum Fexp].
    + unfold F2R. cbn. lra.
    + change (radix2 ^ f_prec F64)%Z with (2 ^ 53)%Z. lia.
    + cbv. discriminate.
Qed.
Lemma int_in_range z : (Z.abs z <= 2 ^ 53)%Z -> in_range F64 (IZR z).
Proof.
  intros B. unfold in_range. rewrite <- abs_IZR. apply Rle_lt_trans with (IZR (2 ^ 53)); [now apply IZR_le|].
  change (IZR (2 ^ 53)) with (bpow radix2 53). apply bpow_lt. reflexivity.
Qed.
