(** CRC lemmas: linearity, error detection, the reflected table. *)
From Verif Require Import Base SpecBytes LemBase ModelCrc SpecCrc.

Lemma mod_bits a w i : N.testbit (a mod 2 ^ w) i = (i <? w) && N.testbit a i.
Proof.
  destruct (N.ltb_spec i w); [now rewrite N.mod_pow2_bits_low|now rewrite N.mod_pow2_bits_high].
Qed.
Lemma dbl_bits a i : N.testbit (2 * a) i = negb (i =? 0) && N.testbit a (i - 1).
Proof.
  destruct (N.eqb_spec i 0) as [->|]; [now rewrite N.testbit_even_0|].
  replace i with (N.succ (i - 1)) at 1 by lia. now rewrite N.testbit_even_succ by lia.
Qed.
Lemma bits_lt a w : (forall i, w <= i -> N.testbit a i = false) -> a < 2 ^ w.
Proof.
  intros B. replace a with (a mod 2 ^ w); [apply N.mod_lt; now apply N.pow_nonzero|].
  apply N.bits_inj. intros i. rewrite mod_bits. destruct (N.ltb_spec i w); [reflexivity|]. now rewrite B.
Qed.
Lemma lt_bits a w i : a < 2 ^ w -> w <= i -> N.testbit a i = false.
Proof. intros L I. rewrite <- (N.mod_small a (2 ^ w)) by auto. rewrite mod_bits. destruct (N.ltb_spec i w); [lia|reflexivity]. Qed.
Lemma lxor_lt a b w : a < 2 ^ w -> b < 2 ^ w -> N.lxor a b < 2 ^ w.
Proof. intros A B. apply bits_lt. intros i I. rewrite N.lxor_spec, (lt_bits a w), (lt_bits b w); auto. Qed.
Lemma pow2_bit k i : N.testbit (2 ^ k) i = (k =? i).
Proof. rewrite N.pow2_bits_eqb. reflexivity. Qed.

Lemma iter_S {A} n (f : A -> A) x : iter (S n) f x = iter n f (f x).
Proof. reflexivity. Qed.
Definition top (w : N) (ms : list bool) : N := fold_right (fun m a => (if m : bool then 2 ^ (w - 1) else 0) + a / 2) 0 ms.

Section Lin.
  Variables (w poly : N).
  Hypothesis WP : 0 < w.
  Hypothesis PB : poly < 2 ^ w.
  Definition L (x : N) : N := crc_feed w poly x false.
  Lemma feed_lt x m : crc_feed w poly x m < 2 ^ w.
  Proof. unfold crc_feed. apply lxor_lt; [apply N.mod_lt; now apply N.pow_nonzero|]. destruct (xorb _ _); [auto|]. now apply N.neq_0_lt_0, N.pow_nonzero. Qed.
  Lemma feeds_lt ms : forall x, x < 2 ^ w -> fold_left (crc_feed w poly) ms x < 2 ^ w.
  Proof. induction ms as [|m ms IH]; intros x X; cbn [fold_left]; [auto|]. apply IH, feed_lt. Qed.
  Lemma L_xor x y : L (N.lxor x y) = N.lxor (L x) (L y).
  Proof.
    unfold L, crc_feed. rewrite !xorb_false_r, N.lxor_spec.
    assert (E : (2 * N.lxor x y) mod 2 ^ w = N.lxor ((2 * x) mod 2 ^ w) ((2 * y) mod 2 ^ w)).
    { apply N.bits_inj. intros i. rewrite N.lxor_spec, !mod_bits, !dbl_bits, N.lxor_spec.
      destruct (i <? w), (i =? 0); cbn; auto; now rewrite ?xorb_false_r. }
    rewrite E. destruct (N.testbit x (w - 1)), (N.testbit y (w - 1)); cbn [xorb];
      apply N.bits_inj; intros i; rewrite ?N.lxor_spec, ?N.bits_0; 
      generalize (N.testbit ((2 * x) mod 2 ^ w) i), (N.testbit ((2 * y) mod 2 ^ w) i), (N.testbit poly i); intros [] [] []; reflexivity.
  Qed.
  Lemma L_0 : L 0 = 0.
  Proof. unfold L, crc_feed. rewrite N.bits_0. cbn [xorb]. rewrite N.mul_0_r, N.mod_0_l by now apply N.pow_nonzero. reflexivity. Qed.
  Lemma feed_L x m : crc_feed w poly x m = L (N.lxor x (if m then 2 ^ (w - 1) else 0)).
  Proof.
    unfold L, crc_feed. destruct m; [|now rewrite N.lxor_0_r].
    rewrite N.lxor_spec, pow2_bit, N.eqb_refl, xorb_false_r. f_equal.
    apply N.bits_inj. intros i. rewrite !mod_bits, !dbl_bits, N.lxor_spec, pow2_bit.
    destruct (N.ltb_spec i w); [|reflexivity]. destruct (N.eqb_spec i 0); [reflexivity|]. destruct (N.eqb_spec (w - 1) (i - 1)); [lia|]. now rewrite xorb_false_r.
  Qed.
  Lemma L_small y : y < 2 ^ (w - 1) -> L y = 2 * y.
  Proof.
    intros Y. unfold L, crc_feed. rewrite (lt_bits y (w - 1)) by (auto; lia). cbn [xorb]. rewrite N.lxor_0_r.
    apply N.mod_small. replace w with (N.succ (w - 1)) by lia. rewrite N.pow_succ_r by lia. lia.
  Qed.
  Lemma top_lt ms : top w ms < 2 ^ w.
  Proof.
    assert (E : 2 ^ w = 2 * 2 ^ (w - 1)) by (rewrite <- N.pow_succ_r by lia; f_equal; lia).
    induction ms as [|m ms IH]; cbn [top fold_right]; [now apply N.neq_0_lt_0, N.pow_nonzero|]. fold (top w ms).
    assert (top w ms / 2 < 2 ^ (w - 1)) by (apply N.div_lt_upper_bound; lia). destruct m; lia.
  Qed.
  Lemma half_small y : y < 2 ^ w -> y / 2 < 2 ^ (w - 1).
  Proof. intros Y. apply N.div_lt_upper_bound; [lia|]. rewrite <- N.pow_succ_r by lia. now replace (N.succ (w - 1)) with w by lia. Qed.
  Lemma top_mult ms : lenN ms <= w -> exists q, top w ms = q * 2 ^ (w - lenN ms).
  Proof.
    induction ms as [|m ms IH]; intros LE; [exists 0; reflexivity|]. rewrite lenN_cons in *.
    destruct IH as [q Q]; [lia|]. cbn [top fold_right]. fold (top w ms). rewrite Q.
    replace (w - lenN ms) with (N.succ (w - (lenN ms + 1))) by lia. rewrite N.pow_succ_r by lia.
    replace (q * (2 * 2 ^ (w - (lenN ms + 1)))) with (q * 2 ^ (w - (lenN ms + 1)) * 2) by lia. rewrite N.div_mul by lia.
    destruct m; [|exists q; lia]. exists (2 ^ lenN ms + q). rewrite N.mul_add_distr_r. f_equal.
    rewrite <- N.pow_add_r. f_equal. lia.
  Qed.
  Lemma feeds_L ms : forall x, lenN ms <= w -> x < 2 ^ w ->
    fold_left (crc_feed w poly) ms x = iter (length ms) L (N.lxor x (top w ms)).
  Proof.
    induction ms as [|m ms IH]; intros x LE X; [cbn; now rewrite N.lxor_0_r|].
    rewrite lenN_cons in LE. cbn [fold_left length iter]. rewrite IH by (try apply feed_lt; lia). f_equal.
    cbn [top fold_right]. fold (top w ms). destruct (top_mult ms ltac:(lia)) as [q Q].
    assert (EV : top w ms = 2 * (top w ms / 2)).
    { assert (D : top w ms mod 2 = 0). { rewrite Q. replace (w - lenN ms) with (N.succ (w - lenN ms - 1)) by lia. rewrite N.pow_succ_r by lia.
        replace (q * (2 * 2 ^ (w - lenN ms - 1))) with (q * 2 ^ (w - lenN ms - 1) * 2) by lia. now apply N.mod_mul. }
      pose proof (N.div_mod (top w ms) 2 ltac:(lia)). lia. }
    pose proof (half_small _ (top_lt ms)) as HS.
    assert (AX : (if m then 2 ^ (w - 1) else 0) + top w ms / 2 = N.lxor (if m then 2 ^ (w - 1) else 0) (top w ms / 2)).
    { apply N.add_nocarry_lxor. apply N.bits_inj. intros i. rewrite N.land_spec, N.bits_0. destruct m; [|now rewrite N.bits_0].
      rewrite pow2_bit. destruct (N.eqb_spec (w - 1) i) as [<-|]; [|reflexivity]. now rewrite (lt_bits _ (w - 1)) by (auto; lia). }
    rewrite AX, <- N.lxor_assoc, L_xor, (L_small (top w ms / 2)) by auto. rewrite <- EV, feed_L. reflexivity.
  Qed.
  Lemma iter_L_xor n : forall x y, iter n L (N.lxor x y) = N.lxor (iter n L x) (iter n L y).
  Proof. induction n as [|n IH]; intros x y; cbn [iter]; [auto|]. now rewrite L_xor, IH. Qed.
  Lemma iter_L_lt n : forall x, x < 2 ^ w -> iter n L x < 2 ^ w.
  Proof. induction n as [|n IH]; intros x X; cbn [iter]; auto. apply IH. apply feed_lt. Qed.

  (** The difference of two registers evolves like a register of its own *)
  Lemma feed_xor x y m n : N.lxor (crc_feed w poly x m) (crc_feed w poly y n) = crc_feed w poly (N.lxor x y) (xorb m n).
  Proof.
    rewrite !feed_L, <- L_xor. f_equal. destruct m, n; cbn [xorb]; apply N.bits_inj; intros i; rewrite !N.lxor_spec, ?N.bits_0;
      generalize (N.testbit x i), (N.testbit y i), (N.testbit (2 ^ (w - 1)) i); intros [] [] []; reflexivity.
  Qed.
  Fixpoint diff (a b : list bool) : list bool :=
    match a, b with x :: a', y :: b' => xorb x y :: diff a' b' | _, _ => [] end.
  Lemma feeds_xor a : forall b x y, length a = length b ->
    N.lxor (fold_left (crc_feed w poly) a x) (fold_left (crc_feed w poly) b y) = fold_left (crc_feed w poly) (diff a b) (N.lxor x y).
  Proof. induction a as [|m a IH]; intros [|n b] x y E; try discriminate E; cbn [fold_left diff]; [auto|]. rewrite IH by (cbn in E; lia). now rewrite feed_xor. Qed.

  Hypothesis ODD : N.testbit poly 0 = true.
  Lemma L_zero x : x < 2 ^ w -> L x = 0 -> x = 0.
  Proof.
    intros X E. assert (T : N.testbit x (w - 1) = false).
    { assert (B : N.testbit (L x) 0 = N.testbit x (w - 1)).
      { unfold L, crc_feed. rewrite xorb_false_r, N.lxor_spec, mod_bits, dbl_bits. cbn [N.eqb negb andb]. rewrite andb_false_r.
        destruct (N.testbit x (w - 1)); [now rewrite ODD|reflexivity]. }
      rewrite E, N.bits_0 in B. auto. }
    assert (S : x < 2 ^ (w - 1)).
    { apply bits_lt. intros i I. destruct (N.eq_dec i (w - 1)) as [->|]; [auto|]. apply (lt_bits x w); auto; lia. }
    rewrite L_small in E by auto. lia.
  Qed.
  Lemma iter_L_zero n : forall x, x < 2 ^ w -> iter n L x = 0 -> x = 0.
  Proof. induction n as [|n IH]; intros x X E; cbn [iter] in E; [auto|]. apply L_zero; auto. apply IH; auto. apply feed_lt. Qed.
  Lemma iter_L_0 n : iter n L 0 = 0.
  Proof. induction n as [|n IH]; cbn [iter]; [auto|]. now rewrite L_0. Qed.
  Lemma feeds_zeros k x : fold_left (crc_feed w poly) (repeat false k) x = iter k L x.
  Proof. revert x. induction k as [|k IH]; intros x; cbn [repeat fold_left iter]; [auto|]. now rewrite IH. Qed.
  Lemma top_zero ms : lenN ms <= w -> top w ms = 0 -> forall m, In m ms -> m = false.
  Proof.
    induction ms as [|m ms IH]; intros LE E m' I; [easy|]. rewrite lenN_cons in LE. cbn [top fold_right] in E. fold (top w ms) in E.
    assert (P : 2 ^ (w - 1) <> 0) by now apply N.pow_nonzero.
    destruct m; [exfalso; revert E P; generalize (2 ^ (w - 1)), (top w ms / 2); clear; intros; lia|].
    destruct I as [<-|I]; [reflexivity|]. apply IH; auto; [lia|].
    destruct (top_mult ms ltac:(lia)) as [q Q]. rewrite N.add_0_l in E.
    assert (D : top w ms mod 2 = 0). { rewrite Q. replace (w - lenN ms) with (N.succ (w - lenN ms - 1)) by lia. rewrite N.pow_succ_r by lia.
        replace (q * (2 * 2 ^ (w - lenN ms - 1))) with (q * 2 ^ (w - lenN ms - 1) * 2) by lia. now apply N.mod_mul. }
    pose proof (N.div_mod (top w ms) 2 ltac:(lia)). lia.
  Qed.
  Lemma burst k p j : lenN p <= w -> (exists m, In m p /\ m = true) ->
    fold_left (crc_feed w poly) (repeat false k ++ p ++ repeat false j) 0 <> 0.
  Proof.
    intros LE (m & I & M) E. rewrite !fold_left_app, !feeds_zeros, iter_L_0 in E.
    apply iter_L_zero in E.
    2: { destruct p as [|b p]; [easy|]. rewrite feeds_L; [apply iter_L_lt|auto|]; rewrite ?N.lxor_0_l; [apply top_lt|]. now apply N.neq_0_lt_0, N.pow_nonzero. }
    rewrite feeds_L in E; [|auto|now apply N.neq_0_lt_0, N.pow_nonzero]. rewrite N.lxor_0_l in E. apply iter_L_zero in E; [|apply top_lt].
    rewrite (top_zero p LE E m I) in M. discriminate.
  Qed.
  (** Different registers stay different *)
  Lemma feeds_inj ms x y : x < 2 ^ w -> y < 2 ^ w -> fold_left (crc_feed w poly) ms x = fold_left (crc_feed w poly) ms y -> x = y.
  Proof.
    intros X Y E. assert (Z : N.lxor (fold_left (crc_feed w poly) ms x) (fold_left (crc_feed w poly) ms y) = 0) by (rewrite E; apply N.lxor_nilpotent).
    rewrite feeds_xor in Z by reflexivity. replace (diff ms ms) with (repeat false (length ms)) in Z.
    2: { clear. induction ms; cbn [repeat length diff]; [auto|]. now rewrite xorb_nilpotent, <- IHms. }
    rewrite feeds_zeros in Z. apply iter_L_zero in Z; [|now apply lxor_lt]. now apply N.lxor_eq.
  Qed.
End Lin.

(** A list of bits that is zero outside a window *)
Lemma window (l : list bool) k w : (forall i, nth i l false = true -> k <= i < k + w)%nat ->
  exists a p c, l = repeat false a ++ p ++ repeat false c /\ (length p <= w)%nat.
Proof.
  revert k. induction l as [|b l IH]; intros k HW.
  - exists 0%nat, [], 0%nat. split; [reflexivity|cbn; lia].
  - destruct k as [|k].
    + destruct w as [|w].
      * exists (length (b :: l)), [], 0%nat. split; [|cbn; lia]. cbn [repeat app]. rewrite app_nil_r.
        assert (Z : forall x, In x (b :: l) -> x = false).
        { intros x I. apply (In_nth _ _ false) in I. destruct I as (n & _ & E). destruct x; [|auto]. specialize (HW n E). lia. }
        revert Z. generalize (b :: l). clear. intros l. induction l as [|x l IH]; intros Z; cbn; [auto|]. rewrite (Z x) by (cbn; auto). f_equal. apply IH. intros. apply Z. cbn; auto.
      * clear IH. exists 0%nat, (firstn (S w) (b :: l)), (length (skipn (S w) (b :: l))). cbn [repeat app]. split; [|rewrite firstn_length; lia].
        rewrite <- (firstn_skipn (S w) (b :: l)) at 1. f_equal.
        assert (Z : forall x, In x (skipn (S w) (b :: l)) -> x = false).
        { intros x I. apply (In_nth _ _ false) in I. destruct I as (n & _ & E). destruct x; [|auto].
          assert (E2 : nth (S w + n) (b :: l) false = true).
          { rewrite <- E. clear. generalize (b :: l), (S w). clear. intros l k. revert l. induction k; intros [|x l]; cbn; auto; now destruct n. }
          specialize (HW _ E2). lia. }
        revert Z. generalize (skipn (S w) (b :: l)). clear. intros l. induction l as [|x l IH]; intros Z; cbn; [auto|]. rewrite (Z x) by (cbn; auto). f_equal. apply IH. intros. apply Z. cbn; auto.
    + destruct (IH k) as (a & p & c & E & LE).
      { intros i Hi. specialize (HW (S i) Hi). lia. }
      assert (b = false). { destruct b; [|auto]. specialize (HW 0%nat eq_refl). lia. }
      subst b. exists (S a), p, c. split; [cbn [repeat app]; now rewrite E|auto].
Qed.

(** Reflection *)
Lemma reflect_loop_bits n : forall i bits val res j, i + N.of_nat n = bits ->
  N.testbit (reflect_loop n i bits val res) j = N.testbit res j || ((j <? bits - i) && N.testbit val (bits - 1 - j)).
Proof.
  induction n as [|n IH]; intros i bits val res j E.
  - cbn [reflect_loop]. destruct (N.ltb_spec j (bits - i)); [lia|]. now rewrite orb_false_r.
  - cbn [reflect_loop]. rewrite IH by lia.
    assert (B : N.testbit (if N.testbit val i then N.lor res (N.shiftl 1 (bits - 1 - i)) else res) j =
                N.testbit res j || (N.testbit val i && (j =? bits - 1 - i))).
    { destruct (N.testbit val i); [|now rewrite orb_false_r]. rewrite N.lor_spec, N.shiftl_1_l, pow2_bit. cbn [andb]. f_equal. apply N.eqb_sym. }
    rewrite B, <- orb_assoc. f_equal.
    destruct (N.eqb_spec j (bits - 1 - i)) as [->|].
    + replace (bits - 1 - (bits - 1 - i)) with i by lia. destruct (N.ltb_spec (bits - 1 - i) (bits - (i + 1))); [lia|].
      destruct (N.ltb_spec (bits - 1 - i) (bits - i)); [|lia]. now rewrite andb_true_r, orb_false_r.
    + rewrite andb_false_r. cbn [orb]. destruct (N.ltb_spec j (bits - (i + 1))), (N.ltb_spec j (bits - i)); try lia; reflexivity.
Qed.
Lemma reflect_bits val w j : N.testbit (reflect val w) j = (j <? w) && N.testbit val (w - 1 - j).
Proof. unfold reflect. rewrite reflect_loop_bits by lia. rewrite N.bits_0, N.sub_0_r. reflexivity. Qed.
Lemma reversed_bits val w j : N.testbit (reversed w val) j = (j <? w) && N.testbit val (w - 1 - j).
Proof.
  unfold reversed.
  assert (G : forall n b, (b + n <= N.to_nat w)%nat ->
    N.testbit (fold_right (fun i a => if N.testbit val (w - 1 - N.of_nat i) then a + 2 ^ N.of_nat i else a) 0 (seq b n)) j =
    (N.of_nat b <=? j) && (j <? N.of_nat (b + n)) && N.testbit val (w - 1 - j)).
  { induction n as [|n IH]; intros b LE.
    - cbn [seq fold_right]. rewrite N.bits_0. destruct (N.leb_spec (N.of_nat b) j), (N.ltb_spec j (N.of_nat (b + 0))); cbn [andb]; auto; lia.
    - cbn [seq fold_right]. specialize (IH (S b) ltac:(lia)).
      set (acc := fold_right (fun i a => if N.testbit val (w - 1 - N.of_nat i) then a + 2 ^ N.of_nat i else a) 0 (seq (S b) n)) in *.
      replace (S b + n)%nat with (b + S n)%nat in IH by lia.
      assert (LOW : N.testbit acc (N.of_nat b) = false).
      { unfold acc. clear -b. assert (Q : forall n c, (b < c)%nat -> exists q, fold_right (fun i a => if N.testbit val (w - 1 - N.of_nat i) then a + 2 ^ N.of_nat i else a) 0 (seq c n) = q * 2 ^ N.succ (N.of_nat b)).
        { clear n. induction n as [|n IH]; intros c LT; cbn [seq fold_right]; [exists 0; reflexivity|].
          destruct (IH (S c) ltac:(lia)) as [q ->]. destruct (N.testbit val _); [|eauto].
          exists (q + 2 ^ (N.of_nat c - N.succ (N.of_nat b))). rewrite N.mul_add_distr_r, <- N.pow_add_r. do 2 f_equal. lia. }
        destruct (Q n (S b) ltac:(lia)) as [q ->]. rewrite N.mul_pow2_bits_low by lia. reflexivity. }
      destruct (N.testbit val (w - 1 - N.of_nat b)) eqn:EB.
      + assert (X : acc + 2 ^ N.of_nat b = N.lxor acc (2 ^ N.of_nat b)).
        { apply N.add_nocarry_lxor. apply N.bits_inj. intros i. rewrite N.land_spec, pow2_bit, N.bits_0.
          destruct (N.eqb_spec (N.of_nat b) i) as [<-|]; [now rewrite LOW|apply andb_false_r]. }
        rewrite X, N.lxor_spec, pow2_bit, IH. destruct (N.eqb_spec (N.of_nat b) j) as [<-|].
        * rewrite EB. destruct (N.leb_spec (N.of_nat (S b)) (N.of_nat b)); [lia|]. rewrite N.leb_refl. destruct (N.ltb_spec (N.of_nat b) (N.of_nat (b + S n))); [reflexivity|lia].
        * rewrite xorb_false_r. destruct (N.leb_spec (N.of_nat (S b)) j), (N.leb_spec (N.of_nat b) j); try lia; reflexivity.
      + rewrite IH. destruct (N.eq_dec (N.of_nat b) j) as [<-|].
        * rewrite EB, !andb_false_r. reflexivity.
        * destruct (N.leb_spec (N.of_nat (S b)) j), (N.leb_spec (N.of_nat b) j); try lia; reflexivity. }
  rewrite G by lia. rewrite Nat.add_0_l, N2Nat.id. destruct (N.leb_spec (N.of_nat 0) j); [|lia]. reflexivity.
Qed.
Lemma reflect_reversed val w : reflect val w = reversed w val.
Proof. apply N.bits_inj. intros j. now rewrite reflect_bits, reversed_bits. Qed.
Lemma reversed_lt val w : reversed w val < 2 ^ w.
Proof. apply bits_lt. intros i I. rewrite reversed_bits. destruct (N.ltb_spec i w); [lia|reflexivity]. Qed.
Lemma reversed_twice val w : val < 2 ^ w -> reversed w (reversed w val) = val.
Proof.
  intros B. apply N.bits_inj. intros j. rewrite !reversed_bits. destruct (N.ltb_spec j w).
  - destruct (N.ltb_spec (w - 1 - j) w); [|lia]. cbn [andb]. f_equal. lia.
  - cbn [andb]. symmetry. now apply (lt_bits val w).
Qed.
Lemma reversed_inj x y w : x < 2 ^ w -> y < 2 ^ w -> reversed w x = reversed w y -> x = y.
Proof. intros X Y E. rewrite <- (reversed_twice x w), <- (reversed_twice y w), E; auto. Qed.
Lemma reversed_xor x y w : reversed w (N.lxor x y) = N.lxor (reversed w x) (reversed w y).
Proof. apply N.bits_inj. intros j. rewrite N.lxor_spec, !reversed_bits, N.lxor_spec. destruct (j <? w); reflexivity. Qed.

(** The generic path is the bit-serial definition *)
Definition crc_w (w32 : bool) : N := if w32 then 32 else 16.
Lemma crc_bit_L w32 poly x : x < 2 ^ crc_w w32 -> poly < 2 ^ crc_w w32 -> crc_bit w32 poly x = L (crc_w w32) poly x.
Proof.
  intros X P. unfold crc_bit, L, crc_feed, crc_w in *. destruct w32; rewrite xorb_false_r.
  - unfold trunc. rewrite N.shiftl_mul_pow2, (N.mul_comm x). change (2 ^ 1) with 2. change (2 ^ (8 * 4)) with (2 ^ 32). change (32 - 1) with 31.
    destruct (N.testbit x 31); [reflexivity|now rewrite N.lxor_0_r].
  - rewrite N.shiftl_mul_pow2, (N.mul_comm x). change (2 ^ 1) with 2. change (16 - 1) with 15. change 0xFFFF with (N.ones 16).
    rewrite !N.land_ones. destruct (N.testbit x 15); [|now rewrite N.lxor_0_r].
    apply N.bits_inj. intros i. rewrite mod_bits, !N.lxor_spec, mod_bits. destruct (N.ltb_spec i 16); [reflexivity|].
    now rewrite (lt_bits poly 16).
Qed.
Lemma iter_bit_L w32 poly n : forall x, x < 2 ^ crc_w w32 -> poly < 2 ^ crc_w w32 -> iter n (crc_bit w32 poly) x = iter n (L (crc_w w32) poly) x.
Proof.
  induction n as [|n IH]; intros x X P; [reflexivity|]. rewrite !iter_S, crc_bit_L by auto. apply IH; auto. now apply feed_lt.
Qed.

Definition top_ok (w32 : bool) (b : N) : bool :=
  (top (crc_w w32) (byte_bits false b) =? (if w32 then trunc 4 (N.shiftl b 24) else trunc 2 (N.shiftl b 8))) &&
  forallb (fun p => Bool.eqb (fst p) (snd p)) (combine (byte_bits true b) (byte_bits false (N.land (reflect b 8) 255))) &&
  (N.land (reflect b 8) 255 <? 256).
Definition all_bytes : list N := map N.of_nat (seq 0 256).
Lemma in_bytes b : b < 256 -> In b all_bytes.
Proof. intros B. apply in_map_iff. exists (N.to_nat b). split; [lia|]. apply in_seq. lia. Qed.
Lemma top_all : forallb (top_ok true) all_bytes && forallb (top_ok false) all_bytes = true.
Proof. vm_compute. reflexivity. Qed.
Lemma top_byte w32 b : b < 256 -> top_ok w32 b = true.
Proof.
  intros B. pose proof top_all as A. apply andb_prop in A. destruct A as [A1 A2]. rewrite forallb_forall in A1, A2. destruct w32; [apply A1|apply A2]; now apply in_bytes.
Qed.
Lemma crc_byte_spec w32 poly refin crc b : b < 256 -> crc < 2 ^ crc_w w32 -> poly < 2 ^ crc_w w32 ->
  crc_byte w32 poly refin crc b = fold_left (crc_feed (crc_w w32) poly) (byte_bits refin b) crc.
Proof.
  intros B X P. set (o := if refin then N.land (reflect b 8) 255 else b).
  assert (OB : o < 256). { unfold o. destruct refin; [|auto]. pose proof (top_byte w32 b B) as T. unfold top_ok in T. apply andb_prop in T. destruct T as [_ T]. lia. }
  assert (BB : byte_bits refin b = byte_bits false o).
  { unfold o. destruct refin; [|reflexivity]. pose proof (top_byte w32 b B) as T. unfold top_ok in T. apply andb_prop in T. destruct T as [T _]. apply andb_prop in T. destruct T as [_ T].
    revert T. assert (LL : length (byte_bits true b) = length (byte_bits false (N.land (reflect b 8) 255))) by reflexivity. revert LL.
    generalize (byte_bits true b), (byte_bits false (N.land (reflect b 8) 255)). clear. intros l. induction l as [|x l IH]; intros [|y m] LL T; try discriminate LL; [auto|].
    cbn [combine forallb fst snd] in T. apply andb_prop in T. destruct T as [T1 T2]. apply eqb_prop in T1. subst y. f_equal. apply IH; auto. }
  pose proof (top_byte w32 o OB) as T. unfold top_ok in T. apply andb_prop in T. destruct T as [T _]. apply andb_prop in T. destruct T as [T _]. apply N.eqb_eq in T.
  rewrite BB. rewrite (feeds_L (crc_w w32) poly) by (auto; destruct w32; easy).
  rewrite T. unfold crc_byte. fold o. change (length (byte_bits false o)) with 8%nat.
  assert (LT : top (crc_w w32) (byte_bits false o) < 2 ^ crc_w w32) by (eapply top_lt; [destruct w32; easy|exact P]). rewrite T in LT.
  destruct w32; apply iter_bit_L; auto; now apply lxor_lt.
Qed.
Lemma fold_cons {A B} (f : A -> B -> A) b l x : fold_left f (b :: l) x = fold_left f l (f x b).
Proof. reflexivity. Qed.
Lemma bits_cons refin b l : message_bits refin (b :: l) = byte_bits refin b ++ message_bits refin l.
Proof. reflexivity. Qed.
Lemma crc_fold_spec w32 poly refin data : wf_bytes data -> poly < 2 ^ crc_w w32 -> forall crc, crc < 2 ^ crc_w w32 ->
  fold_left (crc_byte w32 poly refin) data crc = fold_left (crc_feed (crc_w w32) poly) (message_bits refin data) crc /\
  fold_left (crc_byte w32 poly refin) data crc < 2 ^ crc_w w32.
Proof.
  intros WD P. induction WD as [|b l B WD IH]; intros crc X; [split; auto|].
  rewrite bits_cons, fold_left_app, !fold_cons. rewrite crc_byte_spec by auto. apply IH.
  apply feeds_lt; auto.
Qed.
Lemma land_mask x w : x < 2 ^ w -> N.land x (N.ones w) = x.
Proof. intros. rewrite N.land_ones. now apply N.mod_small. Qed.
Lemma generic_spec data poly init xorout flags w32 : wf_bytes data -> poly < 2 ^ crc_w w32 -> init < 2 ^ crc_w w32 -> xorout < 2 ^ crc_w w32 ->
  calc_crc_generic data poly init xorout flags w32 = crc_spec (crc_w w32) poly init xorout (N.testbit flags 0) (N.testbit flags 1) data.
Proof.
  intros WD P I X. unfold calc_crc_generic, crc_spec. destruct (crc_fold_spec w32 poly (N.testbit flags 0) data WD P init I) as [E B].
  rewrite <- E. replace (if w32 then 32 else 16) with (crc_w w32) by reflexivity. rewrite reflect_reversed.
  replace (if w32 then 0xFFFFFFFF else 0xFFFF) with (N.ones (crc_w w32)) by (destruct w32; reflexivity).
  apply land_mask. apply lxor_lt; [|auto]. destruct (N.testbit flags 1); [apply reversed_lt|auto].
Qed.

(** The table path *)
Definition rpoly : N := 0x04C11DB7.
Definition R (y : N) : N := N.lxor (y / 2) (if N.testbit y 0 then reversed 32 rpoly else 0).
Lemma R_L x : x < 2 ^ 32 -> R (reversed 32 x) = reversed 32 (L 32 rpoly x).
Proof.
  intros X. unfold R, L, crc_feed. rewrite xorb_false_r, reversed_xor, reversed_bits. change (32 - 1 - 0) with 31. change (0 <? 32) with true. cbn [andb]. change (32 - 1) with 31.
  f_equal.
  - apply N.bits_inj. intros i. rewrite <- N.div2_div, N.div2_spec, N.shiftr_spec', !reversed_bits, mod_bits, dbl_bits.
    destruct (N.ltb_spec (i + 1) 32), (N.ltb_spec i 32); try lia; cbn [andb]; auto.
    destruct (N.ltb_spec (32 - 1 - i) 32); [|lia]. destruct (N.eqb_spec (32 - 1 - i) 0); [lia|]. cbn [andb negb]. f_equal. lia.
  - destruct (N.testbit x 31); reflexivity.
Qed.
Lemma R_xor x y : R (N.lxor x y) = N.lxor (R x) (R y).
Proof.
  unfold R. rewrite N.lxor_spec. rewrite <- !N.div2_div, !N.div2_spec, N.shiftr_lxor.
  destruct (N.testbit x 0), (N.testbit y 0); cbn [xorb]; apply N.bits_inj; intros i; rewrite ?N.lxor_spec, ?N.bits_0;
    generalize (N.testbit (N.shiftr x 1) i), (N.testbit (N.shiftr y 1) i), (N.testbit (reversed 32 rpoly) i); intros [] [] []; reflexivity.
Qed.
Lemma iter_R_xor n : forall x y, iter n R (N.lxor x y) = N.lxor (iter n R x) (iter n R y).
Proof. induction n as [|n IH]; intros; cbn [iter]; [auto|]. now rewrite R_xor, IH. Qed.
Lemma R_dbl y : R (2 * y) = y.
Proof. unfold R. rewrite N.testbit_even_0, N.lxor_0_r, N.mul_comm, N.div_mul; lia. Qed.
Lemma R8_shift y : iter 8 R (y * 256) = y.
Proof.
  replace (y * 256) with (2 * (2 * (2 * (2 * (2 * (2 * (2 * (2 * y)))))))) by lia.
  cbn [iter]. now rewrite !R_dbl.
Qed.
Lemma table_all : forallb (fun i => nth (N.to_nat i) crc32_table 0 =? iter 8 R i) all_bytes = true.
Proof. vm_compute. reflexivity. Qed.
Lemma fast_byte y b : b < 256 -> crc_fast_byte y b = iter 8 R (N.lxor y b).
Proof.
  intros B. unfold crc_fast_byte. set (z := N.lxor y b).
  assert (S : N.shiftr y 8 = N.shiftr z 8).
  { unfold z. rewrite N.shiftr_lxor. replace (N.shiftr b 8) with 0; [now rewrite N.lxor_0_r|]. rewrite N.shiftr_div_pow2. symmetry. now apply N.div_small. }
  rewrite S. assert (Z : z = N.lxor (N.shiftr z 8 * 256) (N.land z 255)).
  { change 255 with (N.ones 8). apply N.bits_inj. intros i. rewrite N.lxor_spec, N.land_ones, mod_bits. change 256 with (2 ^ 8).
    destruct (N.ltb_spec i 8).
    - rewrite N.mul_pow2_bits_low by auto. cbn [andb]. now rewrite xorb_false_l.
    - rewrite N.mul_pow2_bits_high, N.shiftr_spec' by auto. cbn [andb]. rewrite xorb_false_r. f_equal. lia. }
  rewrite Z at 3. rewrite iter_R_xor, R8_shift. f_equal.
  pose proof table_all as T. rewrite forallb_forall in T. apply N.eqb_eq, T, in_bytes.
  change 255 with (N.ones 8). rewrite N.land_ones. now apply N.mod_lt.
Qed.
Lemma iter_R_L n : forall x, x < 2 ^ 32 -> iter n R (reversed 32 x) = reversed 32 (iter n (L 32 rpoly) x).
Proof. induction n as [|n IH]; intros x X; [reflexivity|]. rewrite !iter_S, R_L by auto. apply IH. apply feed_lt; reflexivity. Qed.
Lemma rev_byte_all : forallb (fun b => reversed 32 (trunc 4 (N.shiftl (N.land (reflect b 8) 255) 24)) =? b) all_bytes = true.
Proof. vm_compute. reflexivity. Qed.
Lemma fast_byte_spec x b : b < 256 -> x < 2 ^ 32 -> crc_fast_byte (reversed 32 x) b = reversed 32 (crc_byte true rpoly true x b).
Proof.
  intros B X. rewrite fast_byte by auto. unfold crc_byte.
  pose proof rev_byte_all as T. rewrite forallb_forall in T. specialize (T b (in_bytes b B)). apply N.eqb_eq in T.
  set (o := trunc 4 (N.shiftl (N.land (reflect b 8) 255) 24)) in *.
  assert (OB : o < 2 ^ 32) by (apply N.mod_lt; discriminate).
  assert (XO : N.lxor x o < 2 ^ 32) by now apply lxor_lt.
  rewrite (iter_bit_L true rpoly 8 (N.lxor x o) XO) by reflexivity.
  change (crc_w true) with 32. rewrite <- iter_R_L by auto. rewrite reversed_xor, T. reflexivity.
Qed.
Lemma fast_fold data : wf_bytes data -> forall x, x < 2 ^ 32 ->
  fold_left crc_fast_byte data (reversed 32 x) = reversed 32 (fold_left (crc_feed 32 rpoly) (message_bits true data) x).
Proof.
  intros WD. induction WD as [|b l B WD IH]; intros x X; [reflexivity|].
  rewrite bits_cons, fold_left_app, !fold_cons. rewrite fast_byte_spec by auto.
  pose proof (crc_byte_spec true rpoly true x b B X ltac:(reflexivity)) as E. change (crc_w true) with 32 in E. rewrite E. apply IH.
  apply feeds_lt; auto; reflexivity.
Qed.
Lemma fast_spec data init xorout : wf_bytes data -> init < 2 ^ 32 ->
  N.lxor (fold_left crc_fast_byte data init) xorout = crc_spec 32 rpoly (reversed 32 init) xorout true true data.
Proof.
  intros WD I. unfold crc_spec. f_equal. rewrite <- (reversed_twice init 32 I) at 1. apply fast_fold; auto. apply reversed_lt.
Qed.

(** What the interpreter computes *)
Definition start (w32 : bool) (poly flags init : N) : N := if crc_fast w32 poly flags then reversed 32 init else init.
Lemma calc_spec data poly init xorout flags w32 : wf_bytes data -> poly < 2 ^ crc_w w32 -> init < 2 ^ crc_w w32 -> xorout < 2 ^ crc_w w32 ->
  calc_crc data poly init xorout flags w32 =
    crc_spec (crc_w w32) poly (start w32 poly flags init) xorout (N.testbit flags 0) (N.testbit flags 1) data.
Proof.
  intros WD P I X. unfold calc_crc, start. destruct (crc_fast w32 poly flags) eqn:F; [|now apply generic_spec].
  unfold crc_fast in F. apply andb_prop in F. destruct F as [F F3]. apply andb_prop in F. destruct F as [F F2].
  apply andb_prop in F. destruct F as [F1 F]. destruct w32; [|discriminate]. apply N.eqb_eq in F. subst poly. rewrite F2, F3. now apply fast_spec.
Qed.
Lemma crc_spec_lt w poly init xorout refin refout data : 0 < w -> poly < 2 ^ w -> init < 2 ^ w -> xorout < 2 ^ w ->
  crc_spec w poly init xorout refin refout data < 2 ^ w.
Proof.
  intros W P I X. unfold crc_spec. apply lxor_lt; [|auto]. destruct refout; [apply reversed_lt|].
  generalize (message_bits refin data). intros ms. revert init I. induction ms as [|m ms IH]; intros init I; cbn [fold_left]; [auto|]. apply IH. now apply feed_lt.
Qed.

(** Error detection *)
Lemma length_bits refin data : length (message_bits refin data) = (8 * length data)%nat.
Proof. induction data as [|b l IH]; [reflexivity|]. rewrite bits_cons, app_length, IH. change (length (byte_bits refin b)) with 8%nat. cbn [length]. lia. Qed.
Lemma nth_bits refin data : forall i, nth i (message_bits refin data) false = message_bit refin data (N.of_nat i) \/ (8 * length data <= i)%nat.
Proof.
  induction data as [|b l IH]; intros i; [right; cbn; lia|].
  destruct (Nat.lt_ge_cases i 8) as [I|I].
  - left. rewrite bits_cons. rewrite app_nth1 by (change (length (byte_bits refin b)) with 8%nat; lia).
    unfold message_bit. rewrite N.div_small, N.mod_small by lia. change (nthN (b :: l) 0) with b.
    do 8 (destruct i as [|i]; [destruct refin; reflexivity|]). lia.
  - rewrite bits_cons. rewrite app_nth2 by (change (length (byte_bits refin b)) with 8%nat; lia). change (length (byte_bits refin b)) with 8%nat.
    destruct (IH (i - 8)%nat) as [E|E]; [left|right; cbn [length]; lia]. rewrite E. unfold message_bit.
    assert (D : N.of_nat i / 8 = 1 + N.of_nat (i - 8) / 8) by (replace (N.of_nat i) with (1 * 8 + N.of_nat (i - 8)) by lia; now rewrite N.div_add_l by lia).
    assert (M : N.of_nat i mod 8 = N.of_nat (i - 8) mod 8) by (replace (N.of_nat i) with (N.of_nat (i - 8) + 1 * 8) by lia; now rewrite N.mod_add by lia).
    rewrite D, M. f_equal. unfold nthN. replace (N.to_nat (1 + N.of_nat (i - 8) / 8)) with (S (N.to_nat (N.of_nat (i - 8) / 8))) by lia. reflexivity.
Qed.
Lemma diff_nth a : forall b i, length a = length b -> nth i (diff a b) false = xorb (nth i a false) (nth i b false).
Proof. induction a as [|x a IH]; intros [|y b] i E; try discriminate E; destruct i; cbn [diff nth]; auto. Qed.
Lemma byte_ext a b : a < 256 -> b < 256 -> (forall i, i < 8 -> N.testbit a i = N.testbit b i) -> a = b.
Proof.
  intros A B E. apply N.bits_inj. intros i. destruct (N.lt_ge_cases i 8); [auto|]. rewrite (lt_bits a 8), (lt_bits b 8); auto.
Qed.
Lemma data_ext refin a b : wf_bytes a -> wf_bytes b -> lenN a = lenN b ->
  (forall i, i < 8 * lenN a -> message_bit refin a i = message_bit refin b i) -> a = b.
Proof.
  intros WA WB LE E. apply nthN_ext; [auto|]. intros j J. apply byte_ext; try (now apply wf_nthN). intros i I.
  specialize (E (8 * j + (if refin then i else 7 - i)) ltac:(destruct refin; lia)). unfold message_bit in E.
  assert (D : (8 * j + (if refin then i else 7 - i)) / 8 = j) by (rewrite N.mul_comm, N.div_add_l by lia; rewrite N.div_small by (destruct refin; lia); lia).
  assert (M : (8 * j + (if refin then i else 7 - i)) mod 8 = (if refin then i else 7 - i)) by (rewrite N.add_comm, N.mul_comm, N.mod_add by lia; apply N.mod_small; destruct refin; lia).
  rewrite D, M in E. destruct refin; [auto|]. now replace (7 - (7 - i)) with i in E by lia.
Qed.
Lemma spec_detects w poly init xorout refin refout a b k : 0 < w -> poly < 2 ^ w -> N.testbit poly 0 = true -> init < 2 ^ w ->
  wf_bytes a -> wf_bytes b -> lenN a = lenN b -> a <> b ->
  (forall i, i < 8 * lenN a -> message_bit refin a i <> message_bit refin b i -> k <= i < k + w) ->
  crc_spec w poly init xorout refin refout a <> crc_spec w poly init xorout refin refout b.
Proof.
  intros W P O I WA WB LE NE WN EQ. unfold crc_spec in EQ.
  set (ra := fold_left (crc_feed w poly) (message_bits refin a) init) in *. set (rb := fold_left (crc_feed w poly) (message_bits refin b) init) in *.
  assert (RL : forall ms x, x < 2 ^ w -> fold_left (crc_feed w poly) ms x < 2 ^ w).
  { intros ms. induction ms as [|m ms IH]; intros x X; cbn [fold_left]; [auto|]. apply IH. now apply feed_lt. }
  assert (E : ra = rb).
  { assert (E1 : (if refout then reversed w ra else ra) = (if refout then reversed w rb else rb)).
    { apply N.lxor_eq. set (u := if refout then reversed w ra else ra) in *. set (v := if refout then reversed w rb else rb) in *.
      assert (Z : N.lxor (N.lxor u xorout) (N.lxor v xorout) = 0) by (rewrite EQ; apply N.lxor_nilpotent). rewrite <- Z.
      apply N.bits_inj. intros i. rewrite !N.lxor_spec. destruct (N.testbit u i), (N.testbit v i), (N.testbit xorout i); reflexivity. }
    destruct refout; [|auto]. apply (reversed_inj _ _ w); auto; apply RL; auto. }
  assert (LL : length (message_bits refin a) = length (message_bits refin b)) by (rewrite !length_bits; unfold lenN in LE; lia).
  assert (Z : N.lxor ra rb = 0) by (rewrite E; apply N.lxor_nilpotent). unfold ra, rb in Z.
  rewrite (feeds_xor w poly W) in Z by auto. rewrite N.lxor_nilpotent in Z.
  set (d := diff (message_bits refin a) (message_bits refin b)) in *.
  assert (ND : forall i, nth i d false = true -> (i < 8 * length a)%nat /\ message_bit refin a (N.of_nat i) <> message_bit refin b (N.of_nat i)).
  { intros i Hi. unfold d in Hi. rewrite diff_nth in Hi by auto.
    assert (IL : (i < 8 * length a)%nat).
    { destruct (Nat.lt_ge_cases i (8 * length a)); auto. rewrite !nth_overflow in Hi by (rewrite length_bits; unfold lenN in LE; lia). discriminate. }
    split; [auto|]. destruct (nth_bits refin a i) as [X1|]; [|lia]. destruct (nth_bits refin b i) as [X2|]; [|unfold lenN in LE; lia].
    rewrite X1, X2 in Hi. intros F. rewrite F, xorb_nilpotent in Hi. discriminate. }
  destruct (window d (N.to_nat k) (N.to_nat w)) as (x & p & y & DE & PL).
  { intros i Hi. destruct (ND i Hi) as [I1 I2]. specialize (WN (N.of_nat i) ltac:(unfold lenN; lia) I2). lia. }
  rewrite DE in Z. revert Z. apply burst; auto; [unfold lenN; lia|].
  destruct (in_dec Bool.bool_dec true p) as [IP|NP]; [eauto|]. exfalso. apply NE. apply (data_ext refin); auto.
  intros i Hi. assert (D0 : nth (N.to_nat i) d false = false).
  { rewrite DE. destruct (nth (N.to_nat i) (repeat false x ++ p ++ repeat false y) false) eqn:EN; [|auto]. exfalso.
    assert (IN : In true (repeat false x ++ p ++ repeat false y)).
    { rewrite <- EN. apply nth_In. destruct (Nat.lt_ge_cases (N.to_nat i) (length (repeat false x ++ p ++ repeat false y))); auto. rewrite nth_overflow in EN by auto. discriminate. }
    rewrite !in_app_iff in IN. destruct IN as [IN|[IN|IN]]; auto; apply repeat_spec in IN; discriminate. }
  unfold d in D0. rewrite diff_nth in D0 by auto.
  destruct (nth_bits refin a (N.to_nat i)) as [X1|]; [|unfold lenN in Hi; lia]. destruct (nth_bits refin b (N.to_nat i)) as [X2|]; [|unfold lenN in *; lia].
  rewrite X1, X2, !N2Nat.id in D0. destruct (message_bit refin a i), (message_bit refin b i); easy.
Qed.
Lemma start_lt w32 poly flags init : init < 2 ^ crc_w w32 -> start w32 poly flags init < 2 ^ crc_w w32.
Proof. intros I. unfold start. destruct (crc_fast w32 poly flags) eqn:F; [|auto]. destruct w32; [apply reversed_lt|discriminate F]. Qed.
Lemma crc_w_pos w32 : 0 < crc_w w32. Proof. now destruct w32. Qed.
Lemma detects w32 poly init xorout flags a b k : poly < 2 ^ crc_w w32 -> N.testbit poly 0 = true -> init < 2 ^ crc_w w32 -> xorout < 2 ^ crc_w w32 ->
  wf_bytes a -> wf_bytes b -> lenN a = lenN b -> a <> b ->
  (forall i, i < 8 * lenN a -> message_bit (N.testbit flags 0) a i <> message_bit (N.testbit flags 0) b i -> k <= i < k + crc_w w32) ->
  calc_crc a poly init xorout flags w32 <> calc_crc b poly init xorout flags w32.
Proof.
  intros. rewrite !calc_spec by auto. eapply spec_detects; eauto; [apply crc_w_pos|now apply start_lt].
Qed.
Lemma agree_iff data init xorout flags : wf_bytes data -> init < 2 ^ 32 -> xorout < 2 ^ 32 -> N.testbit flags 0 = true -> N.testbit flags 1 = true ->
  (calc_crc data 0x04C11DB7 init xorout flags true = calc_crc_generic data 0x04C11DB7 init xorout flags true <-> reversed 32 init = init).
Proof.
  intros WD I X F0 F1. rewrite calc_spec, generic_spec by (auto; reflexivity). change (crc_w true) with 32. unfold start, crc_fast. rewrite F0, F1. cbn [andb N.eqb Pos.eqb].
  split; [|intros ->; reflexivity]. unfold crc_spec. intros E.
  assert (RL : forall ms x, x < 2 ^ 32 -> fold_left (crc_feed 32 0x04C11DB7) ms x < 2 ^ 32).
  { intros ms. induction ms as [|m ms IH]; intros x X0; cbn [fold_left]; [auto|]. apply IH. apply feed_lt; reflexivity. }
  set (u := fold_left (crc_feed 32 79764919) (message_bits true data) (reversed 32 init)) in *.
  set (v := fold_left (crc_feed 32 79764919) (message_bits true data) init) in *.
  assert (E1 : reversed 32 u = reversed 32 v).
  { apply N.lxor_eq. assert (Z : N.lxor (N.lxor (reversed 32 u) xorout) (N.lxor (reversed 32 v) xorout) = 0) by (rewrite E; apply N.lxor_nilpotent). rewrite <- Z.
    apply N.bits_inj. intros i. rewrite !N.lxor_spec. destruct (N.testbit (reversed 32 u) i), (N.testbit (reversed 32 v) i), (N.testbit xorout i); reflexivity. }
  apply reversed_inj in E1; [|apply RL, reversed_lt|apply RL, I]. unfold u, v in E1. apply (feeds_inj 32) in E1; auto; try reflexivity. apply reversed_lt.
Qed.
