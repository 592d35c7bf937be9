From Verif Require Import Base SpecBytes LemBase ModelWord LemWord ModelBits.
Ltac Zify.zify_post_hook ::= Z.div_mod_to_equations.

(** ** Bits of numbers *)
Lemma lt_pow2_bits x n : (forall k, n <= k -> N.testbit x k = false) -> x < 2 ^ n.
Proof.
  intros H. destruct (N.ltb_spec x (2 ^ n)); auto.
  assert (x <> 0) by (intros ->; pose proof (N.pow_nonzero 2 n); lia).
  pose proof (N.bit_log2 x H1). rewrite H in H2; [discriminate|].
  apply N.log2_le_pow2; lia.
Qed.
Lemma testbit_big x n k : x < 2 ^ n -> n <= k -> N.testbit x k = false.
Proof.
  intros. destruct (N.eq_dec x 0). { subst; apply N.bits_0. }
  apply N.bits_above_log2. apply N.log2_lt_pow2 in H; lia.
Qed.
Lemma testbit_byte x k : x < 256 -> 8 <= k -> N.testbit x k = false.
Proof. apply (testbit_big x 8). Qed.
Lemma land1 x k : (N.land (N.shiftr x k) 1 =? 0) = negb (N.testbit x k).
Proof.
  change 1 with (N.ones 1). rewrite N.land_ones, N.shiftr_div_pow2.
  change (2 ^ 1) with 2. rewrite N.testbit_eqb.
  pose proof (N.mod_lt (x / 2 ^ k) 2).
  set (y := (x / 2 ^ k) mod 2) in *. clearbody y.
  destruct (N.eqb_spec y 0), (N.eqb_spec y 1); cbn; auto; lia.
Qed.
Lemma testbit_pow2 q k : N.testbit (N.shiftl 1 q) k = (k =? q).
Proof.
  rewrite N.shiftl_1_l, N.pow2_bits_eqb. apply N.eqb_sym.
Qed.
Lemma testbit_mod256 v q r : r < 8 -> N.testbit ((v / 2 ^ (8 * q)) mod 256) r = N.testbit v (8 * q + r).
Proof.
  intros. change 256 with (2 ^ 8). rewrite N.mod_pow2_bits_low by auto.
  rewrite N.div_pow2_bits. f_equal. lia.
Qed.

(** ** The bit stream of a buffer *)
Definition inpos (e : endian) (r : N) : N := match e with LE => r | BE => 7 - r end.
Lemma sbit_eq e b i : sbit e b i = N.testbit (nthN b (i / 8)) (inpos e (i mod 8)).
Proof. now destruct e. Qed.

Lemma sbit_ext e a b : wf_bytes a -> wf_bytes b -> lenN a = lenN b ->
  (forall i, i < 8 * lenN a -> sbit e a i = sbit e b i) -> a = b.
Proof.
  intros Wa Wb L H. apply nthN_ext; auto. intros i Hi. apply N.bits_inj. intros k.
  destruct (N.ltb_spec k 8).
  - specialize (H (8 * i + inpos e k)). rewrite !sbit_eq in H.
    assert ((8 * i + inpos e k) / 8 = i) by (destruct e; cbn [inpos]; lia).
    assert (inpos e ((8 * i + inpos e k) mod 8) = k) by (destruct e; cbn [inpos]; lia).
    rewrite H1, H2 in H. apply H. destruct e; cbn [inpos]; lia.
  - rewrite !testbit_byte; auto using wf_nthN.
Qed.

(** Agreement of whole bytes does not depend on the order of bits *)
Lemma sbit_bytes e a b i : nthN a (i / 8) = nthN b (i / 8) -> sbit e a i = sbit e b i.
Proof. intros. rewrite !sbit_eq. now rewrite H. Qed.
Lemma bytes_sbit e a b i : wf_bytes a -> wf_bytes b ->
  (forall j, 8 * i <= j < 8 * i + 8 -> sbit e a j = sbit e b j) -> nthN a i = nthN b i.
Proof.
  intros Wa Wb H. apply N.bits_inj. intros k. destruct (N.ltb_spec k 8).
  - specialize (H (8 * i + inpos e k)). rewrite !sbit_eq in H.
    assert ((8 * i + inpos e k) / 8 = i) by (destruct e; cbn [inpos]; lia).
    assert (inpos e ((8 * i + inpos e k) mod 8) = k) by (destruct e; cbn [inpos]; lia).
    rewrite H1, H2 in H. apply H. destruct e; cbn [inpos]; lia.
  - rewrite !testbit_byte; auto using wf_nthN.
Qed.

(** ** Writing *)

(** Bit number [k] (in stream order) of an [n]-bit field holding [v] *)
Definition wbit (e : endian) (v n k : N) : bool :=
  match e with LE => N.testbit v k | BE => N.testbit v (n - 1 - k) end.

(** [b'] is [b] with the first [m] bits of the [n]-bit field [v] written at bit [p] *)
Definition wrote (e : endian) (b b' : list N) (p m n v : N) : Prop :=
  lenN b' = lenN b /\
  forall j, sbit e b' j = if (p <=? j) && (j <? p + m) then wbit e v n (j - p) else sbit e b j.

Definition setbit (byte q : N) (bit : bool) : N :=
  if bit then N.lor byte (N.shiftl 1 q) else N.ldiff byte (N.shiftl 1 q).
Lemma setbit_spec byte q bit k :
  N.testbit (setbit byte q bit) k = if k =? q then bit else N.testbit byte k.
Proof.
  unfold setbit. destruct bit.
  - rewrite N.lor_spec, testbit_pow2. destruct (N.eqb_spec k q); auto using orb_true_r, orb_false_r.
  - rewrite N.ldiff_spec, testbit_pow2. destruct (N.eqb_spec k q); auto using andb_false_r, andb_true_r.
Qed.
Lemma setbit_byte byte q bit : byte < 256 -> q < 8 -> setbit byte q bit < 256.
Proof.
  intros. change 256 with (2 ^ 8). apply lt_pow2_bits. intros. rewrite setbit_spec.
  destruct (N.eqb_spec k q); [lia|]. now apply testbit_byte.
Qed.

Lemma bit_advance_pos cur boff : boff < 8 ->
  let '(c, o) := bit_advance cur boff in 8 * c + o = 8 * cur + boff + 1 /\ o < 8.
Proof. intros. unfold bit_advance. destruct (N.leb_spec 8 (boff + 1)); lia. Qed.

Lemma write_one e b cur boff bit : wf_bytes b -> boff < 8 -> cur < lenN b ->
  let b' := put b cur [setbit (nthN b cur) (inpos e boff) bit] in
  wf_bytes b' /\ lenN b' = lenN b /\
  forall j, sbit e b' j = if j =? 8 * cur + boff then bit else sbit e b j.
Proof.
  intros W B C b'. assert (q8 : inpos e boff < 8) by (destruct e; cbn [inpos]; lia).
  assert (L1 : lenN [setbit (nthN b cur) (inpos e boff) bit] = 1) by reflexivity.
  split; [|split].
  - apply wf_put; auto; [|lia]. constructor; [|constructor]. apply setbit_byte; auto using wf_nthN.
  - apply lenN_put. lia.
  - intros j. subst b'. rewrite !sbit_eq, nthN_put by lia. rewrite L1.
    destruct (N.leb_spec cur (j / 8)), (N.ltb_spec (j / 8) (cur + 1)); cbn [andb].
    + assert (j / 8 = cur) by lia. rewrite H1, N.sub_diag. unfold nthN at 1. cbn [nth N.to_nat].
      rewrite setbit_spec.
      destruct (N.eqb_spec j (8 * cur + boff)), (N.eqb_spec (inpos e (j mod 8)) (inpos e boff)); auto.
      * exfalso. apply n. f_equal. lia.
      * exfalso. destruct e; cbn [inpos] in *; lia.
    + destruct (N.eqb_spec j (8 * cur + boff)); auto; lia.
    + destruct (N.eqb_spec j (8 * cur + boff)); auto; lia.
    + destruct (N.eqb_spec j (8 * cur + boff)); auto; lia.
Qed.

Lemma write_loop_spec e count v n : forall i b cur boff,
  wf_bytes b -> boff < 8 -> i + N.of_nat n = count ->
  let m := N.min (N.of_nat n) (8 * lenN b - (8 * cur + boff)) in
  match write_bits_loop e count v n i b cur boff with
  | Ub u => u = UShift /\ 64 < count
  | Ok (b', c', o') =>
    wf_bytes b' /\ lenN b' = lenN b /\ o' < 8 /\ 8 * c' + o' = 8 * cur + boff + m /\
    forall j, sbit e b' j =
      if (8 * cur + boff <=? j) && (j <? 8 * cur + boff + m)
      then wbit e v count (i + (j - (8 * cur + boff))) else sbit e b j
  end.
Proof.
  induction n; intros i b cur boff W B Hi m.
  - cbn [write_bits_loop]. assert (m = 0) by lia. repeat split; auto; try lia.
    intros j. destruct (N.leb_spec (8 * cur + boff) j), (N.ltb_spec j (8 * cur + boff + m)); cbn; auto; lia.
  - cbn [write_bits_loop]. destruct (N.leb_spec (lenN b) cur).
    { assert (m = 0) by lia. repeat split; auto; try lia.
      intros j. destruct (N.leb_spec (8 * cur + boff) j), (N.ltb_spec j (8 * cur + boff + m)); cbn; auto; lia. }
    set (sh := match e with LE => i | BE => count - 1 - i end).
    destruct (N.leb_spec 64 sh).
    { split; auto. subst sh. destruct e; lia. }
    rewrite mem_eq. destruct (N.ltb_spec cur (lenN b)); [|lia]. cbn [bindR].
    rewrite land1. rewrite sto_eq. destruct (N.ltb_spec cur (lenN b)); [|lia]. cbn [bindR].
    assert (E : (if negb (N.testbit v sh)
        then N.ldiff (nthN b cur) (N.shiftl 1 match e with LE => boff | BE => 7 - boff end)
        else N.lor (nthN b cur) (N.shiftl 1 match e with LE => boff | BE => 7 - boff end))
        = setbit (nthN b cur) (inpos e boff) (N.testbit v sh)).
    { unfold setbit, inpos. destruct (N.testbit v sh); reflexivity. }
    rewrite E. clear E.
    destruct (write_one e b cur boff (N.testbit v sh) W B H) as (W1 & L1 & S1).
    set (b1 := put b cur _) in *.
    pose proof (bit_advance_pos cur boff B) as A.
    destruct (bit_advance cur boff) as [c o]. destruct A as [A1 A2].
    specialize (IHn (i + 1) b1 c o W1 A2 ltac:(lia)).
    rewrite L1 in IHn. cbv zeta in IHn. rewrite A1 in IHn.
    destruct (write_bits_loop e count v n (i + 1) b1 c o) as [[[b' c'] o']|u]; auto.
    destruct IHn as (W' & L' & O' & P' & S').
    repeat split; auto; try lia.
    intros j. rewrite S', S1.
    destruct (N.leb_spec (8 * cur + boff + 1) j),
     (N.ltb_spec j (8 * cur + boff + 1 + N.min (N.of_nat n) (8 * lenN b - (8 * cur + boff + 1)))),
     (N.leb_spec (8 * cur + boff) j), (N.ltb_spec j (8 * cur + boff + m)), (N.eqb_spec j (8 * cur + boff));
      cbn [andb]; try lia; auto.
    + f_equal. lia.
    + subst j. rewrite N.sub_diag, N.add_0_r. subst sh. destruct e; reflexivity.
Qed.

Lemma nth_le_bytes n v : forall i, i < N.of_nat n -> nthN (le_bytes n v) i = (v / 2 ^ (8 * i)) mod 256.
Proof.
  revert v; induction n; intros v i Hi; [lia|]. cbn [le_bytes]. rewrite nthN_cons.
  destruct (N.eqb_spec i 0).
  - subst. now rewrite N.mul_0_r, N.div_1_r.
  - rewrite IHn by lia. f_equal. rewrite N.div_div by (try apply N.pow_nonzero; lia).
    f_equal. change 256 with (2 ^ 8). rewrite <- N.pow_add_r. f_equal. lia.
Qed.
Lemma nthN_rev l i : i < lenN l -> nthN (rev l) i = nthN l (lenN l - 1 - i).
Proof.
  unfold nthN, lenN. intros. rewrite rev_nth by lia. f_equal. lia.
Qed.
Lemma nth_bytes_of e n v i : i < N.of_nat n ->
  nthN (bytes_of e n v) i = (v / 2 ^ (8 * (match e with LE => i | BE => N.of_nat n - 1 - i end))) mod 256.
Proof.
  intros. destruct e; cbn [bytes_of].
  - now apply nth_le_bytes.
  - assert (L : lenN (le_bytes n v) = N.of_nat n) by (unfold lenN; now rewrite le_bytes_length).
    rewrite nthN_rev, L by lia. apply nth_le_bytes. lia.
Qed.

Lemma write_word_bits w e b cur v : wf_bytes b -> cur + wbytes w <= lenN b ->
  let b' := put b cur (bytes_of e (nbytes w) v) in
  wf_bytes b' /\ wrote e b b' (8 * cur) (8 * wbytes w) (8 * wbytes w) v.
Proof.
  intros W C b'. assert (LB : lenN (bytes_of e (nbytes w) v) = wbytes w).
  { rewrite lenN_bytes_of. symmetry. apply wbytes_nat. }
  split; [|split].
  - apply wf_put; auto; [apply wf_bytes_of|lia].
  - apply lenN_put. lia.
  - intros j. subst b'. rewrite sbit_eq, nthN_put by lia. rewrite LB.
    destruct (N.leb_spec cur (j / 8)), (N.ltb_spec (j / 8) (cur + wbytes w)),
      (N.leb_spec (8 * cur) j), (N.ltb_spec j (8 * cur + 8 * wbytes w)); cbn [andb]; try lia;
      try (now rewrite sbit_eq).
    rewrite nth_bytes_of by (rewrite <- wbytes_nat; lia).
    rewrite testbit_mod256 by (destruct e; cbn [inpos]; lia).
    rewrite <- wbytes_nat. unfold wbit. destruct e; cbn [inpos]; f_equal; lia.
Qed.

Lemma fast_path_Some b cur boff count w : fast_path b cur boff count = Some w ->
  boff = 0 /\ count = 8 * wbytes w /\ cur + wbytes w <= lenN b.
Proof.
  unfold fast_path. destruct (N.eqb_spec boff 0); cbn [andb]; [|discriminate].
  destruct (N.eqb_spec (N.land count 7) 0) as [E|]; [|discriminate].
  change 7 with (N.ones 3) in E. rewrite N.land_ones in E. change (2 ^ 3) with 8 in E.
  destruct (N.leb_spec (cur + count / 8) (lenN b)); [|discriminate].
  unfold fast_width. intros F.
  assert (count = 8 * (count / 8)) by lia.
  destruct (count / 8) as [|[[[[]|[]|]|[[]|[]|]|]|[[[]|[]|]|[[]|[]|]|]|]]; inversion F; subst w; cbn [wbytes] in *;
   repeat split; auto; lia.
Qed.

(** Bit writes: position and contents, for any width and position *)
Lemma write_bits_spec e b cur boff v n : wf_bytes b -> boff < 8 ->
  let m := N.min n (8 * lenN b - (8 * cur + boff)) in
  match write_bits e b cur boff v n with
  | Ub u => u = UShift /\ 64 < n
  | Ok (b', c', o') =>
    wf_bytes b' /\ o' < 8 /\ 8 * c' + o' = 8 * cur + boff + m /\
    wrote e b b' (8 * cur + boff) m n v
  end.
Proof.
  intros W B m. unfold write_bits. destruct (fast_path b cur boff n) as [w|] eqn:F.
  - apply fast_path_Some in F. destruct F as (-> & -> & C).
    rewrite write_word_eq. destruct (N.leb_spec (cur + wbytes w) (lenN b)); [|lia]. cbn [bindR].
    destruct (write_word_bits w e b cur v W C) as [W' R].
    assert (m = 8 * wbytes w) by lia.
    split; [exact W'|]. split; [lia|]. split; [lia|]. rewrite N.add_0_r, H0. exact R.
  - pose proof (write_loop_spec e n v (N.to_nat n) 0 b cur boff W B ltac:(lia)) as S.
    cbv zeta in S. rewrite N2Nat.id in S.
    destruct (write_bits_loop _ _ _ _ _ _ _ _) as [[[b' c'] o']|u]; auto.
    destruct S as (W' & L' & O' & P' & S'). repeat split; auto.
Qed.

(** ** Reading *)

(** [v] holds the first [m] bits of the stream from [p]; bits of big-endian fields arrive most
    significant first *)
Definition fetched (e : endian) (b : list N) (p m v : N) : Prop :=
  forall k, N.testbit v k =
    (k <? m) && sbit e b (match e with LE => p + k | BE => p + (m - 1 - k) end).

Lemma read_loop_spec e b n : forall i val cur boff,
  wf_bytes b -> boff < 8 ->
  let p := 8 * cur + boff in
  let m := N.min (N.of_nat n) (8 * lenN b - p) in
  match read_bits_loop e b n i val cur boff with
  | Ub u => u = UShift /\ 64 < i + N.of_nat n
  | Ok (v, c', o') =>
    o' < 8 /\ 8 * c' + o' = p + m /\
    (val < 2 ^ 64 -> v < 2 ^ 64) /\
    (i + N.of_nat n <= 64 -> val < 2 ^ i ->
     v < 2 ^ (i + m) /\
     forall k, N.testbit v k =
       match e with
       | LE => if k <? i then N.testbit val k else (k <? i + m) && sbit LE b (p + (k - i))
       | BE => if m <=? k then N.testbit val (k - m) else sbit BE b (p + (m - 1 - k))
       end)
  end.
Proof.
  induction n; intros i val cur boff W B p m.
  - cbn [read_bits_loop]. assert (M0 : m = 0) by lia.
    split; [auto|]. split; [lia|]. split; [auto|]. intros Hi Hv. rewrite M0, N.add_0_r.
    split; auto. intros k. destruct e.
    + destruct (N.ltb_spec k i); cbn [andb]; auto. now apply testbit_big with i.
    + destruct (N.leb_spec 0 k); [|lia]. f_equal. lia.
  - cbn [read_bits_loop]. destruct (N.leb_spec (lenN b) cur).
    { assert (M0 : m = 0) by lia.
      split; [auto|]. split; [lia|]. split; [auto|]. intros Hi Hv. rewrite M0, N.add_0_r.
      split; auto. intros k. destruct e.
      + destruct (N.ltb_spec k i); cbn [andb]; auto. now apply testbit_big with i.
      + destruct (N.leb_spec 0 k); [|lia]. f_equal. lia. }
    rewrite mem_eq. destruct (N.ltb_spec cur (lenN b)); [|lia]. cbn [bindR].
    pose proof (bit_advance_pos cur boff B) as A.
    destruct (bit_advance cur boff) as [c o]. destruct A as [A1 A2].
    assert (PD : p / 8 = cur) by lia. assert (PM : p mod 8 = boff) by lia.
    destruct e.
    + rewrite land1.
      assert (SB : sbit LE b p = N.testbit (nthN b cur) boff) by (rewrite sbit_eq, PD, PM; reflexivity).
      set (bt := N.testbit (nthN b cur) boff) in *.
      assert (STEP : forall val', (val < 2 ^ 64 -> val' < 2 ^ 64) ->
        (i < 64 -> val < 2 ^ i -> forall k, N.testbit val' k = if k =? i then bt else N.testbit val k) ->
        match read_bits_loop LE b n (i + 1) val' c o with
        | Ub u => u = UShift /\ 64 < i + N.of_nat (S n)
        | Ok (v, c', o') =>
          o' < 8 /\ 8 * c' + o' = p + m /\ (val < 2 ^ 64 -> v < 2 ^ 64) /\
          (i + N.of_nat (S n) <= 64 -> val < 2 ^ i -> v < 2 ^ (i + m) /\
           forall k, N.testbit v k =
             if k <? i then N.testbit val k else (k <? i + m) && sbit LE b (p + (k - i)))
        end).
      { intros val' V1 V2. specialize (IHn (i + 1) val' c o W A2). cbv zeta in IHn. rewrite A1 in IHn.
        destruct (read_bits_loop LE b n (i + 1) val' c o) as [[[v c'] o']|u]; [|split; [apply IHn|lia]].
        destruct IHn as (O' & P' & V64 & BS). split; [auto|]. split; [lia|]. split; [auto|].
        intros Hi Hv. specialize (V2 ltac:(lia) Hv).
        assert (HV' : val' < 2 ^ (i + 1)).
        { apply lt_pow2_bits. intros k Hk. rewrite V2. destruct (N.eqb_spec k i); [lia|].
          apply testbit_big with i; auto. lia. }
        destruct (BS ltac:(lia) HV') as [BV BS'].
        assert (M1 : m = N.min (N.of_nat n) (8 * lenN b - (8 * cur + boff + 1)) + 1) by lia.
        split. { replace (i + m) with (i + 1 + N.min (N.of_nat n) (8 * lenN b - (8 * cur + boff + 1))) by lia. exact BV. }
        intros k. rewrite BS'.
        destruct (N.ltb_spec k (i + 1)), (N.ltb_spec k i); try lia.
        - rewrite V2. destruct (N.eqb_spec k i); [lia|auto].
        - rewrite V2. destruct (N.eqb_spec k i); [|lia]. subst k.
          destruct (N.ltb_spec i (i + m)); [|lia]. cbn [andb]. rewrite <- SB. f_equal. lia.
        - rewrite M1.
          destruct (N.ltb_spec k (i + 1 + N.min (N.of_nat n) (8 * lenN b - (8 * cur + boff + 1)))),
            (N.ltb_spec k (i + (N.min (N.of_nat n) (8 * lenN b - (8 * cur + boff + 1)) + 1))); cbn [andb]; try lia; auto.
          f_equal. lia. }
      destruct bt eqn:BT; cbn [negb].
      * destruct (N.leb_spec 64 i). { split; auto. lia. } cbn [bindR]. apply STEP.
        -- intros. apply lt_pow2_bits. intros k Hk. rewrite N.lor_spec, testbit_pow2.
           destruct (N.eqb_spec k i); [lia|]. rewrite orb_false_r. now apply testbit_big with 64.
        -- intros _ Hv k. rewrite N.lor_spec, testbit_pow2.
           destruct (N.eqb_spec k i); auto using orb_true_r, orb_false_r.
      * cbn [bindR]. apply STEP; auto.
        intros _ Hv k. destruct (N.eqb_spec k i) as [->|]; auto. apply testbit_big with i; auto. lia.
    + cbn [bindR].
      assert (SB : sbit BE b p = N.testbit (nthN b cur) (7 - boff)) by (rewrite sbit_eq, PD, PM; reflexivity).
      set (bt := N.testbit (nthN b cur) (7 - boff)) in *.
      set (val' := N.lor (trunc 8 (N.shiftl val 1)) (N.land (N.shiftr (nthN b cur) (7 - boff)) 1)).
      assert (LB : N.land (N.shiftr (nthN b cur) (7 - boff)) 1 = N.b2n bt).
      { change 1 with (N.ones 1). rewrite N.land_ones, N.shiftr_div_pow2.
        change (2 ^ 1) with 2. symmetry. apply N.testbit_spec'. }
      assert (TB : forall k, N.testbit (N.b2n bt) k = (k =? 0) && bt).
      { intros k. destruct (N.eqb_spec k 0) as [->|].
        - cbn [andb]. now destruct bt.
        - cbn [andb]. apply testbit_big with 1; [|lia]. change (2^1) with 2. now destruct bt. }
      assert (V1 : val' < 2 ^ 64).
      { apply lt_pow2_bits. intros k Hk. unfold val'. rewrite N.lor_spec, LB, TB.
        unfold trunc. rewrite (N.mod_pow2_bits_high _ (8 * 8)) by lia.
        destruct (N.eqb_spec k 0); [lia|reflexivity]. }
      assert (V2 : i < 64 -> val < 2 ^ i -> forall k, N.testbit val' k = if k =? 0 then bt else N.testbit val (k - 1)).
      { intros Hi Hv k. unfold val'. rewrite N.lor_spec, LB, TB. unfold trunc.
        destruct (N.ltb_spec k 64).
        - rewrite N.mod_pow2_bits_low by lia. destruct (N.eqb_spec k 0) as [->|].
          + rewrite N.shiftl_spec_low by lia. reflexivity.
          + rewrite N.shiftl_spec_high' by lia. cbn [andb]. now rewrite orb_false_r.
        - rewrite N.mod_pow2_bits_high by lia. destruct (N.eqb_spec k 0); [lia|]. cbn [andb orb].
          symmetry. apply testbit_big with i; auto. lia. }
      specialize (IHn (i + 1) val' c o W A2). cbv zeta in IHn. rewrite A1 in IHn.
      destruct (read_bits_loop BE b n (i + 1) val' c o) as [[[v c'] o']|u]; [|split; [apply IHn|lia]].
      destruct IHn as (O' & P' & V64 & BS). split; [auto|]. split; [lia|]. split; [auto|].
      intros Hi Hv. specialize (V2 ltac:(lia) Hv).
      assert (HV' : val' < 2 ^ (i + 1)).
      { apply lt_pow2_bits. intros k Hk. rewrite V2. destruct (N.eqb_spec k 0); [lia|].
        apply testbit_big with i; auto. lia. }
      destruct (BS ltac:(lia) HV') as [BV BS'].
      remember (N.min (N.of_nat n) (8 * lenN b - (8 * cur + boff + 1))) as m1 eqn:Em1.
      assert (M1 : m = m1 + 1) by lia.
      split. { replace (i + m) with (i + 1 + m1) by lia. exact BV. }
      intros k. rewrite BS'.
      destruct (N.leb_spec m1 k), (N.leb_spec m k); try lia.
      * rewrite V2. destruct (N.eqb_spec (k - m1) 0); [lia|]. f_equal. lia.
      * rewrite V2. destruct (N.eqb_spec (k - m1) 0); [|lia]. rewrite <- SB. f_equal. lia.
      * f_equal. lia.
Qed.

Lemma val_of_bits w e b cur : wf_bytes b -> cur + wbytes w <= lenN b ->
  fetched e b (8 * cur) (8 * wbytes w) (val_of e (sub b cur (wbytes w))).
Proof.
  intros W C k.
  assert (LS : lenN (sub b cur (wbytes w)) = wbytes w) by (apply lenN_sub; lia).
  assert (NB : length (sub b cur (wbytes w)) = nbytes w)
    by (unfold lenN in LS; rewrite wbytes_nat in LS at 2; lia).
  set (l := sub b cur (wbytes w)) in *. set (v := val_of e l).
  assert (WL : wf_bytes l) by now apply wf_sub.
  assert (VB : v < 2 ^ (8 * wbytes w)).
  { rewrite wbytes_pow, <- LS. now apply val_of_bound. }
  destruct (N.ltb_spec k (8 * wbytes w)); cbn [andb]; [|now apply testbit_big with (8 * wbytes w)].
  assert (BV : bytes_of e (nbytes w) v = l) by (rewrite <- NB; now apply bytes_val).
  set (q := match e with LE => k / 8 | BE => wbytes w - 1 - k / 8 end).
  assert (Hq : q < wbytes w) by (subst q; destruct e; lia).
  assert (NQ : nthN l q = nthN b (cur + q)) by now apply nthN_sub.
  rewrite <- BV, nth_bytes_of in NQ by (rewrite <- wbytes_nat; lia).
  rewrite <- wbytes_nat in NQ.
  assert (Q' : match e with LE => q | BE => wbytes w - 1 - q end = k / 8) by (subst q; destruct e; lia).
  rewrite Q' in NQ.
  assert (TB : N.testbit v k = N.testbit ((v / 2 ^ (8 * (k / 8))) mod 256) (k mod 8)).
  { rewrite testbit_mod256 by lia. f_equal. lia. }
  rewrite TB, NQ, sbit_eq. clear TB NQ Q' BV VB. destruct e; cbn [inpos].
  - assert (E1 : (8 * cur + k) / 8 = cur + q) by (subst q; lia).
    assert (E2 : (8 * cur + k) mod 8 = k mod 8) by lia. now rewrite E1, E2.
  - assert (E1 : (8 * cur + (8 * wbytes w - 1 - k)) / 8 = cur + q) by (subst q; lia).
    assert (E2 : 7 - (8 * cur + (8 * wbytes w - 1 - k)) mod 8 = k mod 8) by lia. now rewrite E1, E2.
Qed.

Lemma read_bits_spec e b cur boff n : wf_bytes b -> boff < 8 ->
  let p := 8 * cur + boff in
  let m := N.min n (8 * lenN b - p) in
  match read_bits e b cur boff n with
  | Ub u => u = UShift /\ 64 < n
  | Ok (v, c', o') =>
    o' < 8 /\ 8 * c' + o' = p + m /\ v < 2 ^ 64 /\ (n <= 64 -> fetched e b p m v)
  end.
Proof.
  intros W B p m. unfold read_bits. destruct (fast_path b cur boff n) as [w|] eqn:F.
  - apply fast_path_Some in F. destruct F as (-> & -> & C).
    rewrite read_word_eq by auto. destruct (N.leb_spec (cur + wbytes w) (lenN b)); [|lia]. cbn [bindR].
    assert (m = 8 * wbytes w) by lia.
    split; [lia|]. split; [lia|]. split.
    + pose proof (val_of_bound e (sub b cur (wbytes w)) (wf_sub _ _ _ W)).
      rewrite lenN_sub in H1 by lia. rewrite <- wbytes_pow in H1.
      eapply N.lt_le_trans; [exact H1|]. apply N.pow_le_mono_r; [lia|]. destruct w; cbn [wbytes]; lia.
    + intros _. rewrite H0. replace p with (8 * cur) by lia. now apply val_of_bits.
  - pose proof (read_loop_spec e b (N.to_nat n) 0 0 cur boff W B) as S.
    cbv zeta in S. rewrite !N.add_0_l, N2Nat.id in S.
    destruct (read_bits_loop _ _ _ _ _ _ _) as [[[v c'] o']|u]; auto.
    destruct S as (O' & P' & V64 & BS).
    split; [auto|]. split; [auto|]. split; [apply V64; lia|]. intros Hn.
    destruct (BS Hn ltac:(cbn; lia)) as [_ BS']. intros k. rewrite BS'. destruct e.
    + destruct (N.ltb_spec k 0); [lia|]. rewrite N.sub_0_r. reflexivity.
    + fold p. fold m. destruct (N.leb_spec m k), (N.ltb_spec k m); cbn [andb]; try lia; auto using N.bits_0.
Qed.
