(** Proofs behind PropWire.v: words, bit fields, sign extension. *)
From Verif Require Import Base SpecBytes LemBase ModelWord LemWord ModelBits LemBits ModelFloat ModelTrans
  ModelVM SpecVM LemAct LemSafe LemSafety.
Ltac Zify.zify_post_hook ::= Z.div_mod_to_equations.

(** ** Words *)
Lemma store_word w e b p v : p + wbytes w <= lenN b ->
  exists b', write_word w e b p v = Ok b' /\ lenN b' = lenN b /\
    sub b' p (wbytes w) = bytes_of e (N.to_nat (wbytes w)) v /\
    forall i, i < p \/ p + wbytes w <= i -> nthN b' i = nthN b i.
Proof.
  intros HL. rewrite write_word_eq. destruct (N.leb_spec (p + wbytes w) (lenN b)); [|lia].
  assert (LB : lenN (bytes_of e (nbytes w) v) = wbytes w).
  { rewrite lenN_bytes_of. symmetry. apply wbytes_nat. }
  eexists. split; [reflexivity|]. split; [apply lenN_put; lia|]. split.
  - rewrite <- LB at 1. rewrite sub_put_same by lia. f_equal. rewrite wbytes_nat. now rewrite Nat2N.id.
  - intros i Hi. rewrite nthN_put by lia.
    destruct (N.leb_spec p i), (N.ltb_spec i (p + lenN (bytes_of e (nbytes w) v))); cbn; auto. lia.
Qed.
Lemma word_round_trip w e b p v : wf_bytes b -> p + wbytes w <= lenN b ->
  exists b', write_word w e b p v = Ok b' /\ read_word w e b' p = Ok (v mod 2 ^ (8 * wbytes w)).
Proof.
  intros W HL. rewrite write_word_eq. destruct (N.leb_spec (p + wbytes w) (lenN b)); [|lia].
  assert (LB : lenN (bytes_of e (nbytes w) v) = wbytes w).
  { rewrite lenN_bytes_of. symmetry. apply wbytes_nat. }
  eexists. split; [reflexivity|].
  rewrite read_word_eq by (apply wf_put; auto; [apply wf_bytes_of|lia]). rewrite lenN_put by lia.
  destruct (N.leb_spec (p + wbytes w) (lenN b)); [|lia]. f_equal.
  rewrite <- LB at 1. rewrite sub_put_same by lia. rewrite val_bytes, wbytes_pow. now rewrite <- wbytes_nat.
Qed.
Lemma word_read_value w e b p : wf_bytes b -> p + wbytes w <= lenN b ->
  read_word w e b p = Ok (val_of e (sub b p (wbytes w))).
Proof.
  intros W HL. rewrite read_word_eq by auto. destruct (N.leb_spec (p + wbytes w) (lenN b)); [auto|lia].
Qed.

Lemma pow2_split (n : N) : 1 <= n -> 2 ^ (8 * n) = 2 * 2 ^ (8 * n - 1).
Proof. intros. rewrite <- N.pow_succ_r'. f_equal. lia. Qed.
Lemma ofZ_bound w z : ofZ w z < 2 ^ (8 * w).
Proof.
  unfold ofZ. assert (0 < 2 ^ Z.of_N (8 * w))%Z by (apply Z.pow_pos_nonneg; lia).
  pose proof (Z.mod_pos_bound z (2 ^ Z.of_N (8 * w)) H).
  assert (Z.of_N (2 ^ (8 * w)) = 2 ^ Z.of_N (8 * w))%Z by (rewrite N2Z.inj_pow; reflexivity). lia.
Qed.
Lemma ZofN_pow n : (Z.of_N (2 ^ n) = 2 ^ Z.of_N n)%Z.
Proof. rewrite N2Z.inj_pow. reflexivity. Qed.
Lemma toS_ofZ w z : 1 <= w -> (- 2 ^ (8 * Z.of_N w - 1) <= z < 2 ^ (8 * Z.of_N w - 1))%Z -> toS w (ofZ w z) = z.
Proof.
  intros HW HZ. unfold toS, ofZ.
  assert (E : (2 ^ Z.of_N (8 * w) = 2 * 2 ^ (8 * Z.of_N w - 1))%Z).
  { rewrite <- Z.pow_succ_r by lia. f_equal. lia. }
  assert (E2 : (Z.of_N (2 ^ (8 * w - 1)) = 2 ^ (8 * Z.of_N w - 1))%Z).
  { rewrite ZofN_pow. f_equal. lia. }
  set (h := (2 ^ (8 * Z.of_N w - 1))%Z) in *.
  rewrite E. destruct (Z.leb_spec 0 z).
  - rewrite Z.mod_small by lia. destruct (N.ltb_spec (Z.to_N z) (2 ^ (8 * w - 1))); lia.
  - assert (EM : (z mod (2 * h) = z + 2 * h)%Z).
    { symmetry. apply (Z.mod_unique z (2 * h) (-1)); lia. }
    rewrite EM. destruct (N.ltb_spec (Z.to_N (z + 2 * h)) (2 ^ (8 * w - 1))); lia.
Qed.
Lemma ofZ_toS w v : 1 <= w -> v < 2 ^ (8 * w) -> ofZ w (toS w v) = v.
Proof.
  intros HW HV. unfold toS, ofZ.
  assert (E3 := ZofN_pow (8 * w)).
  destruct (N.ltb_spec v (2 ^ (8 * w - 1))).
  - rewrite Z.mod_small by lia. lia.
  - replace (Z.of_N v - 2 ^ Z.of_N (8 * w))%Z with (Z.of_N v + (-1) * 2 ^ Z.of_N (8 * w))%Z by lia.
    rewrite Z.mod_add by lia. rewrite Z.mod_small by lia. lia.
Qed.
Lemma ofZ_trunc w z : w <= 8 -> ofZ 8 z mod 2 ^ (8 * w) = ofZ w z.
Proof.
  intros HW. unfold ofZ. apply N2Z.inj. rewrite N2Z.inj_mod, ZofN_pow.
  assert (0 < 2 ^ Z.of_N (8 * w))%Z by (apply Z.pow_pos_nonneg; lia).
  assert (0 < 2 ^ Z.of_N (8 * 8))%Z by (apply Z.pow_pos_nonneg; lia).
  rewrite !Z2N.id by (apply Z.mod_pos_bound; auto).
  assert (E : (2 ^ Z.of_N (8 * 8) = 2 ^ Z.of_N (8 * w) * 2 ^ (64 - 8 * Z.of_N w))%Z).
  { rewrite <- Z.pow_add_r by lia. f_equal. lia. }
  rewrite E. assert (0 < 2 ^ (64 - 8 * Z.of_N w))%Z by (apply Z.pow_pos_nonneg; lia).
  rewrite Z.rem_mul_r by lia.
  replace (z mod 2 ^ Z.of_N (8 * w) + 2 ^ Z.of_N (8 * w) * ((z / 2 ^ Z.of_N (8 * w)) mod 2 ^ (64 - 8 * Z.of_N w)))%Z
    with (z mod 2 ^ Z.of_N (8 * w) + ((z / 2 ^ Z.of_N (8 * w)) mod 2 ^ (64 - 8 * Z.of_N w)) * 2 ^ Z.of_N (8 * w))%Z by lia.
  rewrite Z.mod_add by lia. apply Z.mod_mod. lia.
Qed.

(** A signed value survives the wire *)
Lemma signed_round_trip w e b p z : wf_bytes b -> p + wbytes w <= lenN b ->
  (- 2 ^ (8 * Z.of_N (wbytes w) - 1) <= z < 2 ^ (8 * Z.of_N (wbytes w) - 1))%Z ->
  exists b' x, write_word w e b p (ofZ 8 z) = Ok b' /\ read_word w e b' p = Ok x /\ toS (wbytes w) x = z.
Proof.
  intros W HL HZ. destruct (word_round_trip w e b p (ofZ 8 z) W HL) as (b' & E1 & E2).
  exists b'. eexists. split; [exact E1|]. split; [exact E2|].
  pose proof (wbytes_pos w). rewrite ofZ_trunc by lia. apply toS_ofZ; lia.
Qed.

(** ** Bit fields *)
Lemma bits_round_trip e b c o v n : wf_bytes b -> o < 8 -> n <= 64 -> 8 * c + o + n <= 8 * lenN b ->
  exists b' c' o', write_bits e b c o v n = Ok (b', c', o') /\
    o' < 8 /\ 8 * c' + o' = 8 * c + o + n /\ lenN b' = lenN b /\
    (forall k, k < n -> sbit e b' (8 * c + o + k) = N.testbit v (match e with LE => k | BE => n - 1 - k end)) /\
    (forall j, j < 8 * c + o \/ 8 * c + o + n <= j -> sbit e b' j = sbit e b j) /\
    read_bits e b' c o n = Ok (v mod 2 ^ n, c', o').
Proof.
  intros W O HN HL. pose proof (write_bits_spec e b c o v n W O) as S.
  cbv zeta in S. destruct (write_bits e b c o v n) as [[[b' c'] o']|u]; [|lia].
  destruct S as (W' & O' & P' & LB & FR).
  assert (EM : N.min n (8 * lenN b - (8 * c + o)) = n) by lia. rewrite EM in *.
  exists b', c', o'. split; [auto|]. split; [auto|]. split; [auto|]. split; [auto|].
  assert (F1 : forall k, k < n -> sbit e b' (8 * c + o + k) = N.testbit v (match e with LE => k | BE => n - 1 - k end)).
  { intros k Hk. rewrite FR.
    destruct (N.leb_spec (8 * c + o) (8 * c + o + k)), (N.ltb_spec (8 * c + o + k) (8 * c + o + n)); cbn [andb]; try lia.
    unfold wbit. replace (8 * c + o + k - (8 * c + o)) with k by lia. destruct e; reflexivity. }
  split; [auto|]. split.
  { intros j Hj. rewrite FR.
    destruct (N.leb_spec (8 * c + o) j), (N.ltb_spec j (8 * c + o + n)); cbn [andb]; auto; lia. }
  pose proof (read_bits_spec e b' c o n W' O) as S. cbv zeta in S.
  destruct (read_bits e b' c o n) as [[[x c2] o2]|u]; [|lia]. rewrite LB, EM in S.
  destruct S as (O2 & P2 & V & F). specialize (F HN).
  assert (c2 = c') by lia. assert (o2 = o') by lia. subst c2 o2. f_equal. f_equal. f_equal.
  apply N.bits_inj. intros k. rewrite F. destruct (N.ltb_spec k n).
  - cbn [andb]. rewrite N.mod_pow2_bits_low by auto. destruct e.
    + now rewrite F1.
    + rewrite F1 by lia. f_equal. lia.
  - cbn [andb]. symmetry. now apply N.mod_pow2_bits_high.
Qed.

Lemma wrote_unique e b b1 b2 p m n v : wf_bytes b1 -> wf_bytes b2 ->
  wrote e b b1 p m n v -> wrote e b b2 p m n v -> b1 = b2.
Proof.
  intros W1 W2 [L1 H1] [L2 H2]. apply (sbit_ext e); auto; [congruence|]. intros. now rewrite H1, H2.
Qed.
Lemma fast_write_same e b c o v n w : wf_bytes b -> o < 8 -> fast_path b c o n = Some w ->
  write_bits e b c o v n = write_bits_loop e n v (N.to_nat n) 0 b c o.
Proof.
  intros W O F. pose proof (write_bits_spec e b c o v n W O) as S.
  destruct (fast_path_Some _ _ _ _ _ F) as (-> & -> & C). cbv zeta in S.
  pose proof (write_loop_spec e (8 * wbytes w) v (N.to_nat (8 * wbytes w)) 0 b c 0 W ltac:(lia) ltac:(lia)) as S2.
  cbv zeta in S2. rewrite N2Nat.id in S2. pose proof (wbytes_pos w).
  destruct (write_bits e b c 0 v (8 * wbytes w)) as [[[b1 c1] o1]|u]; [|lia].
  destruct (write_bits_loop _ _ _ _ _ _ _ _) as [[[b2 c2] o2]|u]; [|lia].
  destruct S as (X1 & X2 & X3 & X4). destruct S2 as (Y1 & Y2 & Y3 & Y4 & Y5).
  assert (c1 = c2) by lia. assert (o1 = o2) by lia. subst.
  assert (b1 = b2); [|now subst]. eapply wrote_unique; [exact X1|exact Y1|exact X4|].
  split; auto.
Qed.
Lemma fast_read_same e b c o n w : wf_bytes b -> o < 8 -> fast_path b c o n = Some w ->
  read_bits e b c o n = read_bits_loop e b (N.to_nat n) 0 0 c o.
Proof.
  intros W O F. pose proof (read_bits_spec e b c o n W O) as S.
  destruct (fast_path_Some _ _ _ _ _ F) as (-> & -> & C). cbv zeta in S.
  pose proof (read_loop_spec e b (N.to_nat (8 * wbytes w)) 0 0 c 0 W ltac:(lia)) as S2.
  cbv zeta in S2. rewrite !N2Nat.id, !N.add_0_l in S2. pose proof (wbytes_pos w).
  destruct (read_bits e b c 0 (8 * wbytes w)) as [[[x c1] o1]|u]; [|lia].
  destruct (read_bits_loop _ _ _ _ _ _ _) as [[[y c2] o2]|u]; [|lia].
  destruct S as (X1 & X2 & X3 & X4). destruct S2 as (Y1 & Y2 & Y3 & Y4).
  assert (c1 = c2) by lia. assert (o1 = o2) by lia. subst.
  destruct Y4 as [Y4 Y5]; [lia|cbn; lia|].
  assert (x = y); [|now subst]. specialize (X4 ltac:(lia)). apply N.bits_inj. intros k. rewrite Y5, X4.
  destruct e.
  - destruct (N.ltb_spec k 0); [lia|]. now rewrite N.sub_0_r.
  - set (m := N.min (8 * wbytes w) (8 * lenN b - (8 * c + 0))) in *.
    destruct (N.leb_spec m k), (N.ltb_spec k m); cbn [andb]; try lia; auto using N.bits_0.
Qed.

(** ** Signed bit fields *)

(** The low [n] bits of [z] read as an [n]-bit two's-complement number *)
Lemma sign_extend_spec z n : 1 <= n <= 64 ->
  exists v, sign_extend (ofZ 8 z mod 2 ^ n) n = Ok v /\ v < 2 ^ 64 /\
    toS 8 v = ((z + 2 ^ (Z.of_N n - 1)) mod 2 ^ Z.of_N n - 2 ^ (Z.of_N n - 1))%Z.
Proof.
  intros HN. unfold sign_extend. set (h := 2 ^ (n - 1)).
  assert (EP : 2 ^ n = 2 * h). { unfold h. rewrite <- N.pow_succ_r'. f_equal. lia. }
  assert (EH : (2 ^ (Z.of_N n - 1) = Z.of_N h)%Z). { unfold h. rewrite ZofN_pow. f_equal. lia. }
  assert (EN : (2 ^ Z.of_N n = 2 * Z.of_N h)%Z) by (rewrite <- ZofN_pow; lia).
  assert (H0 : 0 < h) by (unfold h; pose proof (N.pow_nonzero 2 (n - 1)); lia).
  assert (HM : h <= 2 ^ 63). { unfold h. apply N.pow_le_mono_r; lia. }
  change (2 ^ 63) with 9223372036854775808 in HM.
  set (x := ofZ 8 z mod 2 ^ n). assert (HX : x < 2 * h) by (unfold x; rewrite EP; apply N.mod_upper_bound; lia).
  assert (ZX : (Z.of_N x = z mod (2 * Z.of_N h))%Z).
  { unfold x, ofZ. rewrite N2Z.inj_mod, ZofN_pow, EN.
    change (2 ^ Z.of_N (8 * 8))%Z with 18446744073709551616%Z.
    rewrite Z2N.id by (apply Z.mod_pos_bound; lia).
    assert (ED : (18446744073709551616 = 2 * Z.of_N h * 2 ^ (64 - Z.of_N n))%Z).
    { rewrite <- EN. rewrite <- Z.pow_add_r by lia. replace (Z.of_N n + (64 - Z.of_N n))%Z with 64%Z by lia. reflexivity. }
    rewrite ED. assert (0 < 2 ^ (64 - Z.of_N n))%Z by (apply Z.pow_pos_nonneg; lia).
    rewrite (Z.rem_mul_r z (2 * Z.of_N h) (2 ^ (64 - Z.of_N n))) by lia.
    replace (z mod (2 * Z.of_N h) + 2 * Z.of_N h * ((z / (2 * Z.of_N h)) mod 2 ^ (64 - Z.of_N n)))%Z
      with (z mod (2 * Z.of_N h) + ((z / (2 * Z.of_N h)) mod 2 ^ (64 - Z.of_N n)) * (2 * Z.of_N h))%Z by lia.
    rewrite Z.mod_add by lia. apply Z.mod_mod. lia. }
  assert (RHS : ((z + Z.of_N h) mod (2 * Z.of_N h) - Z.of_N h = if (x <? h)%N then Z.of_N x else Z.of_N x - 2 * Z.of_N h)%Z).
  { pose proof (Z.div_mod z (2 * Z.of_N h) ltac:(lia)) as DM. rewrite <- ZX in DM.
    set (q := (z / (2 * Z.of_N h))%Z) in *. rewrite DM.
    destruct (N.ltb_spec x h).
    - replace (2 * Z.of_N h * q + Z.of_N x + Z.of_N h)%Z with (Z.of_N x + Z.of_N h + q * (2 * Z.of_N h))%Z by lia.
      rewrite Z.mod_add by lia. rewrite Z.mod_small by lia. lia.
    - replace (2 * Z.of_N h * q + Z.of_N x + Z.of_N h)%Z with (Z.of_N x - Z.of_N h + (q + 1) * (2 * Z.of_N h))%Z by lia.
      rewrite Z.mod_add by lia. rewrite Z.mod_small by lia. lia. }
  rewrite EH, EN, RHS.
  unfold toS. change (2 ^ (8 * 8 - 1)) with 9223372036854775808.
  change (2 ^ Z.of_N (8 * 8))%Z with 18446744073709551616%Z. change (2 ^ 64) with 18446744073709551616.
  destruct (N.leb_spec 64 n).
  - assert (n = 64) by lia. subst n. change (2 ^ (64 - 1)) with 9223372036854775808 in h.
    exists x. split; [auto|]. split; [unfold h in *; lia|]. unfold h. unfold h in HX.
    destruct (N.ltb_spec x 9223372036854775808); lia.
  - destruct (N.eqb_spec n 0); [lia|].
    replace (N.shiftl 1 (n - 1)) with h by (rewrite N.shiftl_1_l; reflexivity).
    assert (HH : h <= 2 ^ 62) by (unfold h; apply N.pow_le_mono_r; lia).
    change (2 ^ 62) with 4611686018427387904 in HH.
    assert (LX : N.lxor x h = if x <? h then x + h else x - h).
    { destruct (N.ltb_spec x h).
      - rewrite <- N.add_nocarry_lxor; auto.
        apply N.bits_inj. intros k. rewrite N.land_spec, N.bits_0.
        unfold h in *. destruct (N.eqb_spec k (n - 1)).
        + subst. rewrite (testbit_big x (n - 1)) by (auto; lia). reflexivity.
        + rewrite N.pow2_bits_false by auto. apply andb_false_r.
      - assert (E : x = (x - h) + h) by (clear - H1; clearbody x h; lia).
        assert (HY : x - h < h) by (clear - H1 HX; clearbody x h; lia). set (y := x - h) in *.
        assert (EY : x = N.lxor y h).
        { rewrite E. rewrite <- N.add_nocarry_lxor; auto.
          apply N.bits_inj. intros k. rewrite N.land_spec, N.bits_0.
          unfold h in *. destruct (N.eqb_spec k (n - 1)).
          + subst. rewrite (testbit_big y (n - 1)) by (auto; lia). reflexivity.
          + rewrite N.pow2_bits_false by auto. apply andb_false_r. }
        rewrite EY. rewrite N.lxor_assoc, N.lxor_nilpotent, N.lxor_0_r. reflexivity. }
    rewrite LX. eexists. split; [reflexivity|]. split; [apply N.mod_upper_bound; lia|].
    clear - HX HH H0. clearbody x h.
    destruct (N.ltb_spec x h).
    + replace (x + h + 18446744073709551616 - h) with (x + 1 * 18446744073709551616) by lia.
      rewrite N.mod_add by lia. rewrite N.mod_small by lia.
      destruct (N.ltb_spec x 9223372036854775808); lia.
    + rewrite N.mod_small by lia.
      destruct (N.ltb_spec (x - h + 18446744073709551616 - h) 9223372036854775808); lia.
Qed.
Lemma sign_extend_id z n : 1 <= n <= 64 -> (- 2 ^ (Z.of_N n - 1) <= z < 2 ^ (Z.of_N n - 1))%Z ->
  exists v, sign_extend (ofZ 8 z mod 2 ^ n) n = Ok v /\ toS 8 v = z.
Proof.
  intros HN HZ. destruct (sign_extend_spec z n HN) as (v & E & _ & T). exists v. split; auto.
  rewrite T. assert (2 ^ Z.of_N n = 2 * 2 ^ (Z.of_N n - 1))%Z.
  { rewrite <- Z.pow_succ_r by lia. f_equal. lia. }
  rewrite Z.mod_small; lia.
Qed.
Lemma sext_in_range z n : 1 <= n <= 64 -> (- 2 ^ (Z.of_N n - 1) <= z < 2 ^ (Z.of_N n - 1))%Z ->
  ((z + 2 ^ (Z.of_N n - 1)) mod 2 ^ Z.of_N n - 2 ^ (Z.of_N n - 1))%Z = z.
Proof.
  intros HN HZ. assert (2 ^ Z.of_N n = 2 * 2 ^ (Z.of_N n - 1))%Z.
  { rewrite <- Z.pow_succ_r by lia. f_equal. lia. }
  rewrite Z.mod_small; lia.
Qed.
