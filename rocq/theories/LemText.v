(** Numbers, interning, lexing. *)
From Verif Require Import Base LemBase ModelVM SpecVM LemStr ModelText SpecText.
Ltac Zify.zify_post_hook ::= Z.div_mod_to_equations.

(** ** Numbers *)
Lemma acc_dec_cons bits c s res :
  acc_dec bits (c :: s) res = acc_dec bits s (if is_digit c then (res * 10 + (c - 48)) mod 2 ^ bits else res).
Proof. reflexivity. Qed.
Lemma acc_hex_cons bits c s res :
  acc_hex bits (c :: s) res = acc_hex bits s (N.lor (N.shiftl res 4 mod 2 ^ bits) (hex_char_to_int c)).
Proof. reflexivity. Qed.
Lemma acc_dec_spec bits s ds : Forall2 dec_char s ds -> forall res,
  acc_dec bits s res mod 2 ^ bits = (res * 10 ^ lenN ds + positional 10 ds) mod 2 ^ bits.
Proof.
  assert (P : 2 ^ bits <> 0) by (apply N.pow_nonzero; discriminate).
  induction 1 as [|c d s ds [D ->] F IH]; intros res; [|rewrite acc_dec_cons]; cbn [positional].
  - cbn [acc_dec fold_left]. change (10 ^ lenN []) with 1. f_equal. lia.
  - unfold is_digit. destruct (N.leb_spec 48 (48 + d)); [|lia]. destruct (N.leb_spec (48 + d) 57); [|lia].
    cbn [andb]. rewrite IH.
    rewrite lenN_cons, N.pow_add_r. change (10 ^ 1) with 10.
    rewrite <- N.add_mod_idemp_l by auto. rewrite N.mul_mod_idemp_l by auto. rewrite N.add_mod_idemp_l by auto.
    f_equal. replace (48 + d - 48) with d by lia. ring.
Qed.
Lemma acc_dec_bound bits s res : res < 2 ^ bits -> acc_dec bits s res < 2 ^ bits.
Proof.
  assert (P : 2 ^ bits <> 0) by (apply N.pow_nonzero; discriminate).
  revert res. induction s as [|c s IH]; intros res L; [exact L|rewrite acc_dec_cons].
  apply IH. destruct (is_digit c); auto. now apply N.mod_lt.
Qed.

Lemma hex_char_val c d : hex_char c d -> hex_char_to_int c = d /\ d < 16.
Proof.
  intros [[L ->]|[L [-> | ->]]]; unfold hex_char_to_int;
  repeat match goal with |- context [?a <=? ?b] => destruct (N.leb_spec a b); try lia end; cbn [andb]; lia.
Qed.

Lemma lor_low a d n : d < 2 ^ n -> (2 ^ n | a) -> N.lor a d = a + d.
Proof.
  intros D [q ->]. rewrite <- N.shiftl_mul_pow2. symmetry. rewrite <- N.lxor_lor; [rewrite N.add_nocarry_lxor; auto|];
  apply N.bits_inj; intros i; rewrite N.land_spec, N.bits_0;
  (destruct (N.ltb_spec i n); [rewrite N.shiftl_spec_low by auto; reflexivity|]);
  assert (E : N.testbit d i = false) by
    (destruct (N.eq_dec d 0) as [->|Z]; [apply N.bits_0|apply N.bits_above_log2; apply N.lt_le_trans with n; auto; apply N.log2_lt_pow2; lia]);
  now rewrite E, andb_false_r.
Qed.

Lemma acc_hex_spec bits s ds : 4 <= bits -> Forall2 hex_char s ds -> forall res, res < 2 ^ bits ->
  acc_hex bits s res = (res * 16 ^ lenN ds + positional 16 ds) mod 2 ^ bits.
Proof.
  intros B. assert (P : 2 ^ bits <> 0) by (apply N.pow_nonzero; discriminate).
  induction 1 as [|c d s ds HC F IH]; intros res R; [|rewrite acc_hex_cons]; cbn [positional].
  - cbn [acc_hex fold_left]. change (16 ^ lenN []) with 1. rewrite N.mul_1_r, N.add_0_r. now rewrite N.mod_small.
  - destruct (hex_char_val _ _ HC) as [-> D].
    assert (E : N.lor (N.shiftl res 4 mod 2 ^ bits) d = (res * 16 + d) mod 2 ^ bits).
    { rewrite N.shiftl_mul_pow2. change (2 ^ 4) with 16.
      replace bits with (4 + (bits - 4)) by lia. rewrite N.pow_add_r. change (2 ^ 4) with 16.
      assert (Q : 2 ^ (bits - 4) <> 0) by (apply N.pow_nonzero; discriminate).
      rewrite !(N.mul_comm 16 (2 ^ (bits - 4))). rewrite !(N.mod_mul_r _ _ 16) by (auto; discriminate).
      set (q := 2 ^ (bits - 4)) in *.
      assert (M : (res * 16) mod (q * 16) = (res mod q) * 16) by (apply N.mul_mod_distr_r; auto; discriminate).
      rewrite N.mod_mul_r in M by (auto; discriminate). rewrite M.
      rewrite (lor_low _ _ 4); [|exact D|exists (res mod q); reflexivity].
      assert (M2 : (res * 16 + d) mod (q * 16) = (res mod q) * 16 + d).
      { symmetry. apply (N.mod_unique _ _ (res / q)).
        - assert (res mod q < q) by now apply N.mod_lt. nia.
        - pose proof (N.div_mod res q Q). nia. }
      rewrite N.mod_mul_r in M2 by (auto; discriminate). now rewrite M2. }
    rewrite E. rewrite IH by now apply N.mod_lt.
    rewrite lenN_cons, N.pow_add_r. change (16 ^ 1) with 16.
    rewrite <- N.add_mod_idemp_l by auto. rewrite N.mul_mod_idemp_l by auto. rewrite N.add_mod_idemp_l by auto.
    f_equal. ring.
Qed.

Lemma acc_number_spec bits s v : 4 <= bits -> literal s v -> acc_number bits s = v mod 2 ^ bits.
Proof.
  intros B L. assert (P : 2 ^ bits <> 0) by (apply N.pow_nonzero; discriminate).
  destruct L as [s ds F|x s ds NE X F]; unfold acc_number.
  - replace ((2 <? lenN s) && (peek 0 s =? 48) && ((peek 1 s =? 120) || (peek 1 s =? 88))) with false.
    + rewrite <- (N.mod_small (acc_dec bits s 0) (2 ^ bits)) by (apply acc_dec_bound; lia).
      rewrite (acc_dec_spec _ _ _ F). reflexivity.
    + symmetry. destruct F as [|c d s ds C F]; [reflexivity|]. destruct F as [|c' d' s ds [D ->] F]; [reflexivity|].
      unfold peek. cbn [nth]. destruct (N.eqb_spec (48 + d') 120), (N.eqb_spec (48 + d') 88); lia.
  - replace ((2 <? lenN (48 :: x :: s)) && (peek 0 (48 :: x :: s) =? 48) && ((peek 1 (48 :: x :: s) =? 120) || (peek 1 (48 :: x :: s) =? 88))) with true.
    + cbn [skipn]. rewrite (acc_hex_spec bits s ds) by (auto; lia). f_equal.
    + symmetry. rewrite !lenN_cons. destruct s as [|y s]; [congruence|]. rewrite lenN_cons.
      destruct (N.ltb_spec 2 (lenN s + 1 + 1 + 1)); [|lia]. unfold peek. cbn [nth]. destruct X as [->| ->]; reflexivity.
Qed.

Lemma literal_char s v : literal s v -> s <> [] -> exists c r, s = c :: r /\ 48 <= c <= 57.
Proof.
  intros L NE. destruct L as [s ds F|]; [|exists 48; eexists; split; [reflexivity|lia]].
  destruct F as [|c d s ds [D ->] F]; [congruence|]. exists (48 + d), s. split; auto; lia.
Qed.

Lemma toS_wrap v : toS 8 (v mod 2 ^ 64) = wrap64 (Z.of_N v).
Proof.
  unfold toS, wrap64. change (8 * 8 - 1) with 63. change (Z.of_N (8 * 8)) with 64%Z.
  change (2 ^ 63)%Z with 9223372036854775808%Z. change (2 ^ 64)%Z with 18446744073709551616%Z.
  change (2 ^ 63) with 9223372036854775808. change (2 ^ 64) with 18446744073709551616.
  destruct (N.ltb_spec (v mod 18446744073709551616) 9223372036854775808); lia.
Qed.

Lemma i64_spec s v : literal s v ->
  parse_number_i64 s = Ok (wrap64 (Z.of_N v)) /\
  parse_number_i64 (45 :: s) = (if v mod 2 ^ 64 =? 2 ^ 63 then Ub UOverflow else Ok (wrap64 (- Z.of_N v))) /\
  parse_number_i64 (43 :: s) = Ok (wrap64 (Z.of_N v)).
Proof.
  intros L. pose proof (acc_number_spec 64 _ _ ltac:(lia) L) as E. split; [|split].
  - destruct s as [|c r] eqn:S.
    + inversion L as [? ? F|]; subst. inversion F; subst. reflexivity.
    + destruct (literal_char _ _ L) as (c' & r' & EQ & B); [discriminate|]. injection EQ as <- <-.
      unfold parse_number_i64. destruct (N.eqb_spec c 45); [lia|]. destruct (N.eqb_spec c 43); [lia|].
      now rewrite E, toS_wrap.
  - unfold parse_number_i64. cbn [N.eqb Pos.eqb]. rewrite E, toS_wrap. cbv zeta. clear. unfold wrap64.
    change (2 ^ 63)%Z with 9223372036854775808%Z. change (2 ^ 64)%Z with 18446744073709551616%Z.
    change (2 ^ 63) with 9223372036854775808. change (2 ^ 64) with 18446744073709551616.
    assert (Q : Z.of_N (v mod 18446744073709551616) = (Z.of_N v mod 18446744073709551616)%Z) by apply N2Z.inj_mod.
    revert Q. generalize (v mod 18446744073709551616). intros m Q. generalize dependent (Z.of_N v). intros z Q.
    change (- (9223372036854775808))%Z with (-9223372036854775808)%Z.
    destruct (Z.eqb_spec ((z + 9223372036854775808) mod 18446744073709551616 - 9223372036854775808) (-9223372036854775808)),
      (N.eqb_spec m 9223372036854775808); [reflexivity|exfalso; lia|exfalso; lia|].
    f_equal. lia.
  - unfold parse_number_i64. cbn [N.eqb Pos.eqb]. now rewrite E, toS_wrap.
Qed.

(** ** Interning *)
Lemma find_spec t s : forall i, match strtab_find t s i with
  | Some j => i <= j < i + lenN t /\ cstr (nth (N.to_nat (j - i)) t []) = s
  | None => ~ In s (map cstr t)
  end.
Proof.
  induction t as [|x t IH]; intros i; cbn [strtab_find]; [intros []|].
  rewrite lenN_cons. destruct list_eq_dec as [E|E].
  - split; [lia|]. rewrite N.sub_diag. exact E.
  - specialize (IH (i + 1)). destruct strtab_find as [j|].
    + destruct IH as [A B]. split; [lia|]. replace (N.to_nat (j - i)) with (S (N.to_nat (j - (i + 1)))) by lia. exact B.
    + cbn. tauto.
Qed.

Lemma map_cstr t : Forall text t -> map cstr t = t.
Proof. induction 1; cbn; [auto|]. now rewrite cstr_text, IHForall. Qed.

Lemma add_spec t s : Forall text t -> text s -> NoDup t -> lenN t <= 65536 ->
  lenN (fst (strtab_add t s)) <= 65536 ->
  let (t', i) := strtab_add t s in
  i < lenN t' /\ nth (N.to_nat i) t' [] = s /\ NoDup t' /\ Forall text t' /\ (exists x, t' = t ++ x) /\
  (In s t -> t' = t).
Proof.
  intros T TS ND L L'. unfold strtab_add in *. pose proof (find_spec t s 0) as F. destruct (strtab_find t s 0) as [j|].
  - destruct F as [A B]. rewrite N.mod_small by (change (2 ^ 16) with 65536; lia). split; [lia|].
    rewrite N.sub_0_r in B. split; [|split; [auto|split; [auto|split; [exists []; now rewrite app_nil_r|auto]]]].
    rewrite <- B. symmetry. apply cstr_text. apply (proj1 (Forall_forall _ _) T). apply nth_In. unfold lenN in A. lia.
  - rewrite map_cstr in F by auto. cbn [fst] in L'. rewrite lenN_app, lenN_cons, lenN_nil in *.
    rewrite N.mod_small by (change (2 ^ 16) with 65536; lia). split; [lia|].
    split; [unfold lenN; rewrite Nat2N.id, app_nth2, Nat.sub_diag; auto|].
    split; [|split; [apply Forall_app; auto|split; [eauto|tauto]]].
    clear - F ND. induction ND as [|x t X ND IH]; [constructor; [auto|constructor]|].
    cbn. constructor.
    + rewrite in_app_iff. cbn. intros [Y|[Y|[]]]; [auto|]. subst. apply F. now left.
    + apply IH. intros Y. apply F. now right.
Qed.

Lemma add_len t s : lenN t <= lenN (fst (strtab_add t s)).
Proof. unfold strtab_add. destruct strtab_find; cbn [fst]; [lia|]. rewrite lenN_app. lia. Qed.
Lemma intern_len names : forall t, lenN t <= lenN (fst (intern t names)).
Proof.
  induction names as [|s r IH]; intros t; cbn [intern]; [cbn; lia|].
  pose proof (add_len t s). destruct (strtab_add t s) as [t' i]. cbn [fst] in *. specialize (IH t').
  destruct (intern t' r). cbn [fst] in *. lia.
Qed.

Lemma intern_spec names : forall t, Forall text t -> Forall text names -> NoDup t ->
  lenN (fst (intern t names)) <= 65536 ->
  let (t', ids) := intern t names in
  NoDup t' /\ (exists x, t' = t ++ x) /\ Forall2 (fun s i => i < lenN t' /\ nth (N.to_nat i) t' [] = s) names ids.
Proof.
  induction names as [|s r IH]; intros t T TN ND L; cbn [intern] in *.
  - split; auto. split; [exists []; now rewrite app_nil_r|constructor].
  - inversion TN; subst. pose proof (add_len t s) as AL.
    pose proof (intern_len r (fst (strtab_add t s))) as IL.
    assert (L2 : lenN (fst (strtab_add t s)) <= 65536).
    { destruct (strtab_add t s) as [t' i]. cbn [fst] in *. destruct (intern t' r). cbn [fst] in *. lia. }
    pose proof (add_spec t s T ltac:(auto) ND ltac:(lia) L2) as A.
    destruct (strtab_add t s) as [t' i]. cbn [fst] in *. destruct A as (A1 & A2 & A3 & A4 & (x & ->) & _).
    assert (L3 : lenN (fst (intern (t ++ x) r)) <= 65536) by (destruct (intern (t ++ x) r); exact L).
    specialize (IH (t ++ x) A4 ltac:(auto) A3 L3).
    destruct (intern (t ++ x) r) as [t'' ids]. destruct IH as (B1 & (y & ->) & B3).
    split; auto. split; [exists (x ++ y); now rewrite app_assoc|]. constructor; auto.
    split; [rewrite lenN_app; lia|]. rewrite <- A2. rewrite app_nth1; auto. unfold lenN in A1. lia.
Qed.

Lemma wrap64_fits z : (- 2 ^ 63 <= z < 2 ^ 63)%Z -> wrap64 z = z.
Proof.
  unfold wrap64. change (2 ^ 63)%Z with 9223372036854775808%Z. change (2 ^ 64)%Z with 18446744073709551616%Z. lia.
Qed.

Lemma intern_all names t' ids : Forall text names -> intern [] names = (t', ids) -> lenN t' <= 65536 ->
  NoDup t' /\
  Forall2 (fun s i => i < lenN t' /\ nth (N.to_nat i) t' [] = s) names ids /\
  (forall j k, (j < length names)%nat -> (k < length names)%nat ->
     (nth j ids 0 = nth k ids 0 <-> nth j names [] = nth k names [])).
Proof.
  intros T E L. pose proof (intern_spec names [] ltac:(constructor) T ltac:(constructor)) as I. rewrite E in I. cbn [fst] in I.
  destruct (I L) as (ND & _ & F). split; auto. split; auto.
  assert (G : forall j, (j < length names)%nat -> nth j ids 0 < lenN t' /\ nth (N.to_nat (nth j ids 0)) t' [] = nth j names []).
  { clear E I L T ND. induction F as [|s i names ids [A B] F IH]; intros j J; [cbn in J; lia|]. destruct j as [|j]; cbn; auto.
    apply IH. cbn in J. lia. }
  intros j k J K. destruct (G j J) as [A1 A2], (G k K) as [B1 B2]. split; intros X.
  - now rewrite <- A2, <- B2, X.
  - rewrite <- A2, <- B2 in X. apply (proj1 (NoDup_nth t' []) ND) in X; unfold lenN in *; lia.
Qed.
