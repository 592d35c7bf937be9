(** Numbers in JSON documents. *)
From Coq Require Import Reals Floats.SpecFloat Lra.
From Flocq Require Import Core BinarySingleNaN.
From Coq Require Import ZifyBool ZifyNat ZifyN.
From Verif Require Import Base SpecBytes ModelWord ModelFloat SpecReal LemReal LemScale LemTrans ModelVM SpecVM SpecPacket SpecMessage ModelJson SpecJson.
Ltac Zify.zify_post_hook ::= Z.div_mod_to_equations.

(** ** Patterns of finite numbers *)
Definition sf_sign (v : spec_float) : bool := match v with S754_zero s => s | S754_finite s _ _ => s | _ => false end.
Lemma negative_sign f x : finite f x -> negative f x = sf_sign (fdec f x).
Proof.
  unfold finite, negative, fdec. set (s := N.odd _). destruct (_ =? 0).
  - destruct (x mod 2 ^ f_mw f); reflexivity.
  - destruct (_ =? _); [destruct (x mod _ =? 0); discriminate|]. destruct (x mod 2 ^ f_mw f + 2 ^ f_mw f); reflexivity.
Qed.
Lemma fenc_fdec f x : known f -> x < 2 ^ (f_mw f + f_ew f + 1) -> finite f x -> fenc f (fdec f x) = x.
Proof.
  intros K B. unfold finite, fdec. assert (Z2 : 2 ^ f_mw f <> 0) by (apply N.pow_nonzero; discriminate).
  rewrite N.add_1_r, N.pow_succ_r', N.pow_add_r in B. rewrite N.pow_add_r.
  set (P := 2 ^ f_mw f) in *. set (Q := 2 ^ f_ew f) in *. assert (Q0 : Q <> 0) by (apply N.pow_nonzero; discriminate).
  set (man := x mod P). set (ex := x / P mod Q). set (t := x / (P * Q)). assert (T : t < 2) by (apply N.div_lt_upper_bound; nia).
  assert (MB : man < P) by (apply N.mod_lt; auto). assert (EB : ex < Q) by (apply N.mod_lt; auto).
  assert (X : x = man + ex * P + t * (P * Q)).
  { unfold man, ex, t. rewrite <- N.div_div by auto. pose proof (N.div_mod x P Z2) as E1. pose proof (N.div_mod (x / P) Q Q0) as E2.
    set (u := x mod P) in *. clearbody u. set (y := x / P) in *. clearbody y. set (a := y / Q) in *. set (c := y mod Q) in *. clearbody a c. subst y x. ring. }
  clearbody man ex t.
  assert (SG : (if N.odd t then P * Q else 0) = t * (P * Q)) by (assert (t = 0 \/ t = 1) as [-> | ->] by lia; cbv [N.odd N.even negb]; ring).
  destruct (N.eqb_spec ex 0) as [E0|E0].
  - destruct man as [|m]; intros _; cbn [fenc]; rewrite N.pow_add_r; fold P Q.
    + rewrite SG. lia.
    + destruct (N.ltb_spec (Npos m) P); [|lia]. rewrite SG. lia.
  - destruct (N.eqb_spec ex (Q - 1)) as [E1|E1]; [destruct (man =? 0); discriminate|].
    destruct (man + P) as [|m] eqn:EM; [lia|]. intros _. cbn [fenc]. rewrite N.pow_add_r. fold P Q. rewrite <- EM.
    destruct (N.ltb_spec (man + P) P); [lia|]. rewrite SG. replace (Z.to_N _) with ex by lia. lia.
Qed.
Lemma real_zero f x : finite f x -> real f x = 0%R -> exists s, fdec f x = S754_zero s.
Proof.
  unfold finite, real. destruct (fdec f x) as [s|s| |s m e]; try discriminate; eauto. intros _ R. exfalso. cbn [SF2R] in R.
  apply eq_0_F2R in R. destruct s; discriminate.
Qed.
Lemma fdec_eq f (K : known f) a b : finite f a -> finite f b -> real f a = real f b -> (real f a = 0%R -> sf_sign (fdec f a) = sf_sign (fdec f b)) ->
  fdec f a = fdec f b.
Proof.
  intros FA FB R SG. destruct (Req_dec (real f a) 0) as [Z|Z].
  - specialize (SG Z). destruct (real_zero _ _ FA Z) as (s & E). rewrite R in Z. destruct (real_zero _ _ FB Z) as (s' & E'). rewrite E, E' in *. cbn in SG. now rewrite SG.
  - destruct (as_float f K a) as (x & EX & RX & FX). destruct (as_float f K b) as (y & EY & RY & FY). rewrite EX, EY. f_equal.
    assert (ST : forall c : binary_float (f_prec f) (f_emax f), is_finite c = true -> B2R c <> 0%R -> is_finite_strict c = true).
    { intros c F N. destruct c; cbn in *; congruence || reflexivity. }
    apply B2R_inj; [apply ST; [now apply FX|congruence]|apply ST; [now apply FY|congruence]|congruence].
Qed.
Lemma known32 : known F32.
Proof. now left. Qed.
Lemma fdec_finite_valid f v : valid_binary (f_prec f) (f_emax f) v = true -> known f -> fenc f (fdec f (fenc f v)) = fenc f v.
Proof. intros V K. now rewrite fdec_fenc. Qed.

(** float to double and back *)
Lemma widen_real x : finite F32 x -> finite F64 (f_conv F32 F64 x) /\ real F64 (f_conv F32 F64 x) = real F32 x.
Proof.
  intros F. assert (G : RN F64 (real F32 x) = real F32 x).
  { unfold RN. apply round_generic; [apply valid_rnd_N|]. rewrite <- (real_format F32 known32 x). unfold RN.
    assert (I : generic_format radix2 (FLT_exp (f_emin F32) (f_prec F32)) (round radix2 (FLT_exp (f_emin F32) (f_prec F32)) ZnearestE (real F32 x))).
    { apply generic_format_round; [apply FLT_exp_valid; reflexivity|apply valid_rnd_N]. }
    revert I. apply generic_inclusion_mag. intros _. unfold FLT_exp. cbn. lia. }
  destruct (conv_real F64 known64 F32 x F) as (A & B).
  - rewrite G. unfold in_range. eapply Rlt_trans; [apply (real_bound F32 known32)|]. apply bpow_lt. reflexivity.
  - split; [exact A|]. now rewrite B.
Qed.
Lemma conv_sign g f (K : known f) x : finite g x -> real g x = 0%R -> sf_sign (fdec f (f_conv g f x)) = sf_sign (fdec g x).
Proof.
  intros F Z. destruct (real_zero _ _ F Z) as (s & E). unfold f_conv. rewrite E. now rewrite fdec_fenc.
Qed.
Lemma normalize_valid f m e s : known f -> valid_binary (f_prec f) (f_emax f) (SpecFloat.binary_normalize (f_prec f) (f_emax f) m e s) = true.
Proof. intros K. rewrite (normalize_equiv _ _ (known_prec f K) (known_emax f K)). apply valid_binary_B2SF. Qed.
Lemma conv_again g f (K : known f) x : finite g x -> fenc f (fdec f (f_conv g f x)) = f_conv g f x.
Proof.
  unfold finite, f_conv. destruct (fdec g x) as [s|s| |s m e]; try discriminate; intros _; (rewrite fdec_fenc; [reflexivity|exact K|]); [reflexivity|].
  now apply normalize_valid.
Qed.
Lemma narrow d v : finite F64 d -> finite F32 v -> real F64 d = real F32 v -> negative F64 d = negative F32 v -> v < 2 ^ 32 -> f_conv F64 F32 d = v.
Proof.
  intros FD FV R SG B. assert (G : RN F32 (real F64 d) = real F32 v) by (rewrite R; apply (real_format F32 known32)).
  destruct (conv_real F32 known32 F64 d FD) as (A & C); [rewrite G; apply (real_bound F32 known32)|]. rewrite G in C.
  rewrite <- (conv_again F64 F32 known32 d FD), <- (fenc_fdec F32 v known32 B FV). f_equal. apply fdec_eq; auto using known32.
  intros Z. rewrite (conv_sign F64 F32 known32 d FD) by congruence. rewrite <- !negative_sign; auto.
Qed.
Lemma widen_sign x : finite F32 x -> x < 2 ^ 32 -> negative F64 (f_conv F32 F64 x) = negative F32 x.
Proof.
  intros F B. destruct (widen_real x F) as (A & R). rewrite !negative_sign by auto. destruct (Req_dec (real F32 x) 0) as [Z|Z]; [now apply conv_sign; auto using known64|].
  revert A R. unfold finite, real in *. assert (V : forall v : spec_float, SF2R radix2 v <> 0%R -> is_finite_SF v = true -> sf_sign v = Rlt_bool (SF2R radix2 v) 0).
  { intros v N FN. destruct v as [s|s| |s m e]; try discriminate; [cbn in N; congruence|]. cbn [sf_sign SF2R]. symmetry. destruct s; cbn [cond_Zopp].
    - apply Rlt_bool_true. apply F2R_lt_0. reflexivity.
    - apply Rlt_bool_false. apply F2R_ge_0. easy. }
  intros A R. rewrite V by (auto; congruence). rewrite (V (fdec F32 x)) by auto. now rewrite R.
Qed.

(** ** Integers *)
Lemma ofZ_number n sg v : 1 <= n -> v < 2 ^ (8 * n) -> ofZ n (number n sg v) = v.
Proof.
  intros N V. unfold ofZ, number. assert (E : (2 ^ Z.of_N (8 * n) = Z.of_N (2 ^ (8 * n)))%Z) by (rewrite N2Z.inj_pow; reflexivity).
  assert (E' : (2 ^ (8 * Z.of_N n) = Z.of_N (2 ^ (8 * n)))%Z) by (rewrite N2Z.inj_pow; f_equal; lia).
  rewrite E, E'. set (P := 2 ^ (8 * n)) in *. destruct (sg && _).
  - replace (Z.of_N v - Z.of_N P)%Z with (Z.of_N v + (-1) * Z.of_N P)%Z by lia. rewrite Z.mod_add, Z.mod_small by lia. lia.
  - rewrite Z.mod_small by lia. lia.
Qed.
Lemma toS_number n v : 1 <= n -> v < 2 ^ (8 * n) -> toS n v = number n true v.
Proof.
  intros N V. unfold toS, number. cbn [andb]. replace (2 ^ (8 * Z.of_N n))%Z with (2 ^ Z.of_N (8 * n))%Z by (f_equal; lia).
  destruct (N.leb_spec (2 ^ (8 * n - 1)) v), (N.ltb_spec v (2 ^ (8 * n - 1))); lia || reflexivity.
Qed.
Definition I32 : ity := {| i_w := W4; i_signed := true |}.
Lemma valueint_ok d z : finite F64 d -> real F64 d = IZR z -> (int_min <= z <= int_max)%Z -> valueint (JNum d) = Ok z.
Proof.
  intros F R B. unfold valueint. unfold int_min, int_max in *.
  assert (M : forall c, (Z.abs c <= 2 ^ 53)%Z -> finite F64 (f_of_Z F64 c) /\ real F64 (f_of_Z F64 c) = IZR c).
  { intros c C. destruct (of_Z_real F64 known64 c) as (A & D); [rewrite RN_int by auto; now apply int_in_range|]. now rewrite RN_int in D by auto. }
  destruct (M 2147483647%Z) as (F1 & R1); [lia|]. destruct (M (-2147483648)%Z) as (F2 & R2); [lia|].
  destruct (fle F64 (f_of_Z F64 2147483647) d) eqn:L1.
  { apply (fle_real F64 known64) in L1; auto. rewrite R1, R in L1. apply le_IZR in L1. f_equal. lia. }
  destruct (fle F64 d (f_of_Z F64 (-2147483648))) eqn:L2.
  { apply (fle_real F64 known64) in L2; auto. rewrite R2, R in L2. apply le_IZR in L2. f_equal. lia. }
  assert (T : Ztrunc (real F64 d) = z) by (rewrite R; apply Ztrunc_IZR).
  pose proof (to_int_real F64 known64 I32 d F) as X. rewrite T in X. apply X. unfold fits. cbn. lia.
Qed.
Lemma to_int_ok d z lo hi : finite F64 d -> real F64 d = IZR z -> (lo <= z <= hi)%Z -> f_to_int F64 lo hi d = Ok z.
Proof.
  intros F R B. unfold f_to_int. rewrite trunc_real by auto using known64. rewrite R, Ztrunc_IZR.
  destruct (Z.leb_spec lo z), (Z.leb_spec z hi); try lia. reflexivity.
Qed.
Lemma of_Z_exact z : (Z.abs z <= 2 ^ 53)%Z -> finite F64 (f_of_Z F64 z) /\ real F64 (f_of_Z F64 z) = IZR z /\ f_of_Z F64 z < 2 ^ 64.
Proof.
  intros C. destruct (of_Z_real F64 known64 z) as (A & D); [rewrite RN_int by auto; now apply int_in_range|]. rewrite RN_int in D by auto.
  split; [exact A|]. split; [exact D|]. apply fenc_bound. now apply normalize_valid; auto using known64.
Qed.

(** ** The callback's conversions *)
Ltac cases := repeat match goal with |- context [if ?c then _ else _] => destruct c eqn:? end; cbn in *; lia.
Lemma value_enc ty v j : 0x10 <= ty <= 0x1A -> number_ok ty v -> number_managed ty v -> shows_number ty v j ->
  exists x, encode_value ty (Some j) = Ok (store x) /\ x mod 2 ^ (8 * width ty) = v.
Proof.
  intros T (B & BB) M S. unfold shows_number in S.
  assert (SM : forall x, x = v -> x mod 2 ^ (8 * width ty) = v) by (intros ? ->; now apply N.mod_small).
  assert (C : ty = 0x10 \/ ty = 0x11 \/ ty = 0x12 \/ ty = 0x13 \/ ty = 0x14 \/ ty = 0x15 \/ ty = 0x16 \/ ty = 0x17 \/ ty = 0x18 \/ ty = 0x19 \/ ty = 0x1A) by lia.
  destruct C as [E|[E|[E|[E|[E|[E|[E|[E|[E|[E|E]]]]]]]]]]; rewrite E in *; cbn [N.eqb Pos.eqb] in S; try (destruct S as (d & -> & DB & F & R));
    unfold encode_value; cbn [valuedouble]; unfold type_signed, width, scalar_bytes, type_bytes in *; cbn [N.leb N.compare Pos.compare Pos.compare_cont andb] in *.
  1,2,3,5,6,7: (rewrite (valueint_ok d _ F R); [cbn [bindR]; eexists; split; [reflexivity|]; apply SM; now apply ofZ_number|unfold number, int_min, int_max; cbn [andb]; cbn in B; try (cbn in M); cases]).
  - cbn [number_managed] in M. rewrite (to_int_ok d _ _ _ F R) by (unfold number; cbn in *; lia). cbn [bindR]. eexists. split; [reflexivity|]. apply SM. now apply ofZ_number.
  - rewrite (to_int_ok d _ _ _ F R) by (unfold number; cbn in *; cases). cbn [bindR]. eexists. split; [reflexivity|]. apply SM. now apply ofZ_number.
  - destruct R as (FV & R & SG). eexists. split; [reflexivity|]. apply SM. now apply narrow.
  - subst d. eexists. split; [reflexivity|]. now apply SM.
  - subst j. eexists. split; [reflexivity|]. apply SM. specialize (BB eq_refl). assert (v = 0 \/ v = 1) as [-> | ->] by lia; reflexivity.
Qed.
Lemma value_dec b e ty v : 0x10 <= ty <= 0x1A -> number_ok ty v -> number_managed ty v ->
  exists j, decode_value b e ty (cvar (width ty) v) = Ok (Some j) /\ shows_number ty v j.
Proof.
  intros T (B & BB) M. unfold shows_number.
  assert (C : ty = 0x10 \/ ty = 0x11 \/ ty = 0x12 \/ ty = 0x13 \/ ty = 0x14 \/ ty = 0x15 \/ ty = 0x16 \/ ty = 0x17 \/ ty = 0x18 \/ ty = 0x19 \/ ty = 0x1A) by lia.
  destruct C as [E|[E|[E|[E|[E|[E|[E|[E|[E|[E|E]]]]]]]]]]; rewrite E in *; cbn [N.eqb Pos.eqb]; unfold decode_value, int_of, cvar;
    unfold type_signed, width, scalar_bytes, type_bytes in *; cbn [N.leb N.compare Pos.compare Pos.compare_cont andb] in *.
  1,2,3,4: (eexists; split; [reflexivity|]; assert (NB : (Z.abs (Z.of_N v) <= 2 ^ 53)%Z) by (cbn in *; lia);
    destruct (of_Z_exact _ NB) as (F & R & L); eexists; split; [reflexivity|]; split; [exact L|]; split; [exact F|exact R]).
  1,2,3,4: (eexists; split; [reflexivity|]; rewrite toS_number by (auto; lia); match goal with |- context [f_of_Z F64 ?z] => assert (NB : (Z.abs z <= 2 ^ 53)%Z) by
     (first [exact M|unfold number; cbn in *; cases]) end;
    destruct (of_Z_exact _ NB) as (F & R & L); eexists; split; [reflexivity|]; split; [exact L|]; split; [exact F|exact R]).
  - cbn [number_managed] in M. destruct (widen_real v M) as (F & R). eexists. split; [reflexivity|]. eexists. split; [reflexivity|].
    split; [|split; [exact F|split; [exact M|split; [exact R|now apply widen_sign]]]]. rewrite <- (conv_again F32 F64 known64 v M). apply fenc_bound. apply fdec_valid. apply known64.
  - eexists. split; [reflexivity|]. eexists. split; [reflexivity|]. split; [exact B|]. split; [exact M|reflexivity].
  - eexists. split; [reflexivity|]. specialize (BB eq_refl). assert (v = 0 \/ v = 1) as [-> | ->] by lia; reflexivity.
Qed.
