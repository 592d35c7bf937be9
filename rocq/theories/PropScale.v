(** C47: linear scaling. *)
From Coq Require Import Reals Floats.SpecFloat Lra.
From Flocq Require Import Core BinarySingleNaN.
From Verif Require Import Base SpecBytes ModelWord ModelFloat ModelTrans ModelVM SpecVM SpecReal LemReal LemScale Samples.

(** The scaling in force is the one given by the preceding instruction: factor, then offset. *)
Theorem C47_setup : forall (H : Type) (host : H -> request -> H * reply) lm bc s h,
  wf_bytes bc -> ip s + 17 <= lenN bc -> opcode_at bc s = 0x43 ->
  interp host (step lm bc s) h =
    (SCont (set_tr (set_ip s (ip s + 17)) (TScale (operand_at bc s 1 8) (operand_at bc s 9 8))), h, []).
Proof. intros H. exact scale_setup. Qed.
Print Assumptions C47_setup.

(** Decoding reports raw * factor + offset, each operation rounded to the nearest double, for every integer field, factor and
    offset, unless it overflows. *)
Theorem C47_decode : forall lm bc fac off d n raw,
  wf_bytes bc -> finite F64 fac -> finite F64 off ->
  wf_bytes (buf d) -> type_bytes (opcode_at bc d) = Some n -> ip d + 3 <= lenN bc ->
  boff d < 8 -> md d = Dec -> tr d = TScale fac off -> byte_pos d + n <= lenN (buf d) ->
  number n (type_signed (opcode_at bc d)) (val_of (en d) (sub (buf d) (byte_pos d) n)) = raw ->
  let p := RN F64 (RN F64 (IZR raw) * real F64 fac) in in_range F64 p ->
  let e := RN F64 (p + real F64 off) in in_range F64 e ->
  exists v, v < 2 ^ 64 /\ finite F64 v /\ real F64 v = e /\
    forall H (host : H -> request -> H * reply) h h' r,
    let rq := ask (key_at bc d) 0x19 (cvar 8 v) (HField (opcode_at bc d) (tr d)) in
    host h rq = (h', r) -> r_ok r = true ->
    exists d', interp host (step lm bc d) h = (SCont d', h', [(rq, r)]) /\
      buf d' = buf d /\ position d' = 8 * (byte_pos d + n) /\ tr d' = TNone.
Proof. intros lm bc fac off d n raw WB FF FO. exact (scale_decode lm bc WB fac off FF FO d n raw). Qed.
Print Assumptions C47_decode.

(** Encoding stores (value - offset) / factor, each operation rounded, cut to an integer ... *)
Theorem C47_encode : forall lm bc fac off (H : Type) (host : H -> request -> H * reply) s h h' r n v,
  wf_bytes bc -> finite F64 fac -> finite F64 off ->
  type_bytes (opcode_at bc s) = Some n -> ip s + 3 <= lenN bc -> boff s < 8 -> md s = Enc ->
  tr s = TScale fac off -> byte_pos s + n <= lenN (buf s) ->
  let rq := ask (key_at bc s) 0x19 (cvar 8 0) (HField (opcode_at bc s) (tr s)) in
  host h rq = (h', r) -> r_ok r = true -> r_val r = Some v -> v < 2 ^ 64 -> finite F64 v -> real F64 fac <> 0%R ->
  let a := RN F64 (real F64 v - real F64 off) in in_range F64 a ->
  let q := RN F64 (a / real F64 fac) in in_range F64 q ->
  fits n (type_signed (opcode_at bc s)) (Ztrunc q) ->
  exists s', interp host (step lm bc s) h = (SCont s', h', [(rq, r)]) /\
    sub (buf s') (byte_pos s) n = bytes_of (en s) (N.to_nat n) (ofZ n (Ztrunc q)) /\
    (forall i, i < byte_pos s \/ byte_pos s + n <= i -> nthN (buf s') i = nthN (buf s) i) /\
    position s' = 8 * (byte_pos s + n) /\ tr s' = TNone.
Proof. intros lm bc fac off H host s h h' r n v WB FF FO. exact (scale_encode lm bc WB fac off FF FO host s h h' r n v). Qed.
Print Assumptions C47_encode.
(** ... which is undefined exactly when that integer does not fit the field. *)
Theorem C47_overflow : forall lm bc fac off (H : Type) (host : H -> request -> H * reply) s h h' r n v,
  wf_bytes bc -> finite F64 fac -> finite F64 off ->
  type_bytes (opcode_at bc s) = Some n -> ip s + 3 <= lenN bc -> boff s < 8 -> md s = Enc ->
  tr s = TScale fac off -> byte_pos s + n <= lenN (buf s) ->
  let rq := ask (key_at bc s) 0x19 (cvar 8 0) (HField (opcode_at bc s) (tr s)) in
  host h rq = (h', r) -> r_ok r = true -> r_val r = Some v -> v < 2 ^ 64 -> finite F64 v -> real F64 fac <> 0%R ->
  let a := RN F64 (real F64 v - real F64 off) in in_range F64 a ->
  let q := RN F64 (a / real F64 fac) in in_range F64 q ->
  ~ fits n (type_signed (opcode_at bc s)) (Ztrunc q) ->
  interp host (step lm bc s) h = (SUndef UFloat, h', [(rq, r)]).
Proof. intros lm bc fac off H host s h h' r n v WB FF FO. exact (scale_overflow lm bc WB fac off FF FO host s h h' r n v). Qed.
Print Assumptions C47_overflow.

(** Integer factors and offsets: what is reported is exact while everything stays within 2^53 ... *)
Theorem C47_integers_decode : forall lm bc fac off d n raw F O,
  wf_bytes bc -> finite F64 fac -> finite F64 off -> real F64 fac = IZR F -> real F64 off = IZR O ->
  wf_bytes (buf d) -> type_bytes (opcode_at bc d) = Some n -> ip d + 3 <= lenN bc ->
  boff d < 8 -> md d = Dec -> tr d = TScale fac off -> byte_pos d + n <= lenN (buf d) ->
  number n (type_signed (opcode_at bc d)) (val_of (en d) (sub (buf d) (byte_pos d) n)) = raw ->
  (Z.abs raw <= 2 ^ 53)%Z -> (Z.abs (raw * F) <= 2 ^ 53)%Z -> (Z.abs (raw * F + O) <= 2 ^ 53)%Z ->
  exists v, v < 2 ^ 64 /\ finite F64 v /\ real F64 v = IZR (raw * F + O) /\
    forall H (host : H -> request -> H * reply) h h' r,
    let rq := ask (key_at bc d) 0x19 (cvar 8 v) (HField (opcode_at bc d) (tr d)) in
    host h rq = (h', r) -> r_ok r = true ->
    exists d', interp host (step lm bc d) h = (SCont d', h', [(rq, r)]) /\
      buf d' = buf d /\ position d' = 8 * (byte_pos d + n) /\ tr d' = TNone.
Proof.
  intros lm bc fac off d n raw F O WB FF FO EF EO WF HT HI B M T HL ER B1 B2 B3.
  assert (P : RN F64 (RN F64 (IZR raw) * real F64 fac) = IZR (raw * F)) by (rewrite RN_int, EF, <- mult_IZR, RN_int; auto).
  assert (E : RN F64 (IZR (raw * F) + real F64 off) = IZR (raw * F + O)) by (rewrite EO, <- plus_IZR, RN_int; auto).
  pose proof (C47_decode lm bc fac off d n raw WB FF FO WF HT HI B M T HL ER) as X. cbv zeta in X. rewrite P, E in X.
  apply X; now apply int_in_range.
Qed.
Print Assumptions C47_integers_decode.
(** ... and what is stored is the quotient rounded towards zero. *)
Theorem C47_integers_encode : forall lm bc fac off (H : Type) (host : H -> request -> H * reply) s h h' r n v F O e,
  wf_bytes bc -> finite F64 fac -> finite F64 off -> real F64 fac = IZR F -> real F64 off = IZR O -> F <> 0%Z ->
  type_bytes (opcode_at bc s) = Some n -> ip s + 3 <= lenN bc -> boff s < 8 -> md s = Enc ->
  tr s = TScale fac off -> byte_pos s + n <= lenN (buf s) ->
  let rq := ask (key_at bc s) 0x19 (cvar 8 0) (HField (opcode_at bc s) (tr s)) in
  host h rq = (h', r) -> r_ok r = true -> r_val r = Some v -> v < 2 ^ 64 -> finite F64 v -> real F64 v = IZR e ->
  (Z.abs (e - O) < 2 ^ 53)%Z -> fits n (type_signed (opcode_at bc s)) (Z.quot (e - O) F) ->
  exists s', interp host (step lm bc s) h = (SCont s', h', [(rq, r)]) /\
    sub (buf s') (byte_pos s) n = bytes_of (en s) (N.to_nat n) (ofZ n (Z.quot (e - O) F)) /\
    (forall i, i < byte_pos s \/ byte_pos s + n <= i -> nthN (buf s') i = nthN (buf s) i) /\
    position s' = 8 * (byte_pos s + n) /\ tr s' = TNone.
Proof.
  intros lm bc fac off H host s h h' r n v F O e WB FF FO EF EO NF HT HI B M T HL rq HH HR HV VB FV EV BE FT.
  assert (A : RN F64 (real F64 v - real F64 off) = IZR (e - O)) by (rewrite EV, EO, <- minus_IZR, RN_int; auto; Lia.lia).
  pose proof (real_bound F64 known64 fac) as RB. rewrite EF in RB.
  assert (Q : Ztrunc (RN F64 (IZR (e - O) / real F64 fac)) = Z.quot (e - O) F) by (rewrite EF; apply quot_real; auto).
  pose proof (C47_encode lm bc fac off H host s h h' r n v WB FF FO HT HI B M T HL HH HR HV VB FV) as X. cbv zeta in X. rewrite A, Q in X.
  apply X; auto.
  - rewrite EF. apply IZR_neq. auto.
  - apply int_in_range. Lia.lia.
  - rewrite EF. apply quot_in_range; auto. Lia.lia.
Qed.
Print Assumptions C47_integers_encode.

(** Factor 1 and offset 0: what is reported is the stored integer, for every integer a double holds exactly, and what is stored
    is the integer supplied. *)
Theorem C47_identity_decode : forall lm bc d n raw,
  wf_bytes bc -> wf_bytes (buf d) -> type_bytes (opcode_at bc d) = Some n -> ip d + 3 <= lenN bc ->
  boff d < 8 -> md d = Dec -> tr d = TScale 0x3FF0000000000000 0 -> byte_pos d + n <= lenN (buf d) ->
  number n (type_signed (opcode_at bc d)) (val_of (en d) (sub (buf d) (byte_pos d) n)) = raw ->
  (exists x, real F64 x = IZR raw) ->
  exists v, v < 2 ^ 64 /\ finite F64 v /\ real F64 v = IZR raw /\
    forall H (host : H -> request -> H * reply) h h' r,
    let rq := ask (key_at bc d) 0x19 (cvar 8 v) (HField (opcode_at bc d) (tr d)) in
    host h rq = (h', r) -> r_ok r = true ->
    exists d', interp host (step lm bc d) h = (SCont d', h', [(rq, r)]).
Proof.
  intros lm bc d n raw WB WF HT HI B M T HL ER (x & EX). destruct one_real as (R1 & F1). destruct zero_real as (R0 & F0).
  pose proof (C47_decode lm bc _ _ d n raw WB F1 F0 WF HT HI B M T HL ER) as X. cbv zeta in X.
  pose proof (real_bound F64 known64 x) as RX. pose proof (real_format F64 known64 x) as RF. rewrite EX in RX, RF.
  rewrite R1, R0, RF, Rmult_1_r, RF, Rplus_0_r, RF in X.
  destruct (X RX RX) as (v & VB & FV & EV & Y).
  exists v. split; [exact VB|]. split; [exact FV|]. split; [exact EV|]. intros. destruct (Y H host h h' r) as (d' & D & _); eauto.
Qed.
Print Assumptions C47_identity_decode.
Theorem C47_identity_encode : forall lm bc (H : Type) (host : H -> request -> H * reply) s h h' r n v e,
  wf_bytes bc -> type_bytes (opcode_at bc s) = Some n -> ip s + 3 <= lenN bc -> boff s < 8 -> md s = Enc ->
  tr s = TScale 0x3FF0000000000000 0 -> byte_pos s + n <= lenN (buf s) ->
  let rq := ask (key_at bc s) 0x19 (cvar 8 0) (HField (opcode_at bc s) (tr s)) in
  host h rq = (h', r) -> r_ok r = true -> r_val r = Some v -> v < 2 ^ 64 -> finite F64 v -> real F64 v = IZR e ->
  fits n (type_signed (opcode_at bc s)) e ->
  exists s', interp host (step lm bc s) h = (SCont s', h', [(rq, r)]) /\
    sub (buf s') (byte_pos s) n = bytes_of (en s) (N.to_nat n) (ofZ n e).
Proof.
  intros lm bc H host s h h' r n v e WB HT HI B M T HL rq HH HR HV VB FV EV FT. destruct one_real as (R1 & F1). destruct zero_real as (R0 & F0).
  pose proof (C47_encode lm bc _ _ H host s h h' r n v WB F1 F0 HT HI B M T HL HH HR HV VB FV) as X. cbv zeta in X.
  pose proof (real_bound F64 known64 v) as RX. pose proof (real_format F64 known64 v) as RF.
  rewrite R1, R0, Rminus_0_r, RF in X. unfold Rdiv in X. rewrite Rinv_1, Rmult_1_r, RF, EV, Ztrunc_IZR in X. rewrite EV in RX.
  destruct (X R1_neq_R0 RX RX FT) as (s' & S1 & S2 & _). eauto.
Qed.
Print Assumptions C47_identity_encode.

(** Whatever the factor: when no operation rounds, what decoding reports is encoded to the same bytes. *)
Theorem C47_exact_round_trip : forall lm bc fac off d n raw,
  wf_bytes bc -> finite F64 fac -> finite F64 off -> real F64 fac <> 0%R ->
  wf_bytes (buf d) -> type_bytes (opcode_at bc d) = Some n -> ip d + 3 <= lenN bc ->
  boff d < 8 -> md d = Dec -> tr d = TScale fac off -> byte_pos d + n <= lenN (buf d) ->
  number n (type_signed (opcode_at bc d)) (val_of (en d) (sub (buf d) (byte_pos d) n)) = raw ->
  fits n (type_signed (opcode_at bc d)) raw -> (Z.abs raw <= 2 ^ 53)%Z ->
  let p := (IZR raw * real F64 fac)%R in RN F64 p = p -> in_range F64 p ->
  let e := (p + real F64 off)%R in RN F64 e = e -> in_range F64 e ->
  exists v, v < 2 ^ 64 /\ finite F64 v /\ real F64 v = e /\
    (forall H (host : H -> request -> H * reply) h h' r,
      let rq := ask (key_at bc d) 0x19 (cvar 8 v) (HField (opcode_at bc d) (tr d)) in
      host h rq = (h', r) -> r_ok r = true -> exists d', interp host (step lm bc d) h = (SCont d', h', [(rq, r)])) /\
    (forall (H : Type) (host : H -> request -> H * reply) s h h' r,
      md s = Enc -> ip s = ip d -> tr s = tr d -> boff s < 8 -> byte_pos s + n <= lenN (buf s) ->
      let rq := ask (key_at bc s) 0x19 (cvar 8 0) (HField (opcode_at bc s) (tr s)) in
      host h rq = (h', r) -> r_ok r = true -> r_val r = Some v ->
      exists s', interp host (step lm bc s) h = (SCont s', h', [(rq, r)]) /\
        sub (buf s') (byte_pos s) n = bytes_of (en s) (N.to_nat n) (ofZ n raw)).
Proof.
  intros lm bc fac off d n raw WB FF FO NZ WF HT HI B M T HL ER FT BR p EP RP e EE RE.
  pose proof (C47_decode lm bc fac off d n raw WB FF FO WF HT HI B M T HL ER) as X. cbv zeta in X. rewrite (RN_int raw BR) in X.
  fold p in X. rewrite EP in X. fold e in X. rewrite EE in X. destruct (X RP RE) as (v & VB & FV & EV & D). exists v.
  split; [exact VB|]. split; [exact FV|]. split; [exact EV|]. split.
  - intros. destruct (D H host h h' r) as (d' & D' & _); eauto.
  - intros H host s h h' r MS IP TS BS LS rq HH HR HV.
    assert (A : RN F64 (real F64 v - real F64 off) = p) by (rewrite EV; unfold e; replace (p + real F64 off - real F64 off)%R with p by lra; exact EP).
    assert (Q : RN F64 (p / real F64 fac) = IZR raw) by (unfold p; replace (IZR raw * real F64 fac / real F64 fac)%R with (IZR raw) by (field; auto); apply RN_int; auto).
    assert (OP : opcode_at bc s = opcode_at bc d) by (unfold opcode_at; now rewrite IP).
    pose proof (C47_encode lm bc fac off H host s h h' r n v WB FF FO) as Y. cbv zeta in Y. rewrite OP, A, Q, Ztrunc_IZR in Y.
    destruct Y as (s' & S1 & S2 & _); auto.
    + now rewrite IP.
    + now rewrite TS.
    + unfold rq in HH. now rewrite OP in HH.
    + now apply int_in_range.
    + exists s'. unfold rq. rewrite OP. auto.
Qed.
Print Assumptions C47_exact_round_trip.

(** With rounding it need not be: factor 0.1, stored 43, reported 4.3..., stored 42. *)
Theorem C47_rounding_loses : exists v,
  interp quiet (step lm0 [0x10; 0; 0] (mkst Dec [43] 0 0 0 LE (TScale 0x3FB999999999999A 0) false [] [])) tt =
    (SCont (mkst Dec [43] 3 1 0 LE TNone false [] []), tt, [(ask 0 0x19 (cvar 8 v) (HField 0x10 (TScale 0x3FB999999999999A 0)), nod)]) /\
  interp (always v) (step lm0 [0x10; 0; 0] (mkst Enc [0] 0 0 0 LE (TScale 0x3FB999999999999A 0) false [] [])) tt =
    (SCont (mkst Enc [42] 3 1 0 LE TNone false [] []), tt, [(ask 0 0x19 (cvar 8 0) (HField 0x10 (TScale 0x3FB999999999999A 0)), say v)]).
Proof. exists 0x4011333333333333. split; vm_compute; reflexivity. Qed.
Print Assumptions C47_rounding_loses.

(** Factor 3, offset -10: raw 100 (int16, little endian) is reported as 290.0, which is stored as 100. *)
Definition scale47 : trans := TScale 0x4008000000000000 0xC024000000000000.
Definition dec47 : st := mkst Dec [100; 0] 0 0 0 LE scale47 false [] [].
Example C47_nonvacuous :
  real F64 0x4008000000000000 = IZR 3 /\ real F64 0xC024000000000000 = IZR (-10) /\ real F64 0x4072200000000000 = IZR 290 /\
  finite F64 0x4008000000000000 /\ finite F64 0xC024000000000000 /\
  number 2 (type_signed (opcode_at [0x15; 0; 0] dec47)) (val_of LE (sub (buf dec47) (byte_pos dec47) 2)) = 100%Z /\
  (exists d', interp quiet (step lm0 [0x15; 0; 0] dec47) tt = (SCont d', tt, [(ask 0 0x19 (cvar 8 0x4072200000000000) (HField 0x15 scale47), nod)])) /\
  (exists s', interp (always 0x4072200000000000) (step lm0 [0x15; 0; 0] (mkst Enc [0; 0] 0 0 0 LE scale47 false [] [])) tt =
    (SCont s', tt, [(ask 0 0x19 (cvar 8 0) (HField 0x15 scale47), say 0x4072200000000000)]) /\ buf s' = [100; 0]).
Proof.
  assert (G : forall x s m e z, fdec F64 x = S754_finite s m e -> (cond_Zopp s (Zpos m) = z * 2 ^ (- e))%Z -> (e <= 0)%Z -> real F64 x = IZR z).
  { intros x s m e z E Z N. unfold real. rewrite E. cbn [SF2R]. unfold F2R. cbn [Fnum Fexp]. rewrite Z, mult_IZR.
    change 2%Z with (radix_val radix2). rewrite IZR_Zpower by Lia.lia. rewrite Rmult_assoc, <- bpow_plus. replace (- e + e)%Z with 0%Z by Lia.lia. cbn. lra. }
  split; [eapply G; [vm_compute; reflexivity|reflexivity|discriminate]|]. split; [eapply G; [vm_compute; reflexivity|reflexivity|discriminate]|].
  split; [eapply G; [vm_compute; reflexivity|reflexivity|discriminate]|]. split; [reflexivity|]. split; [reflexivity|]. split; [reflexivity|].
  split; [eexists; vm_compute; reflexivity|]. eexists. split; vm_compute; reflexivity.
Qed.
