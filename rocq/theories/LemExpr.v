(** Postfix code computes the expression. *)
From Verif Require Import Base SpecBytes LemBase ModelWord LemWord ModelBits LemBits ModelFloat ModelTrans
  ModelVM SpecVM LemAct LemSafe LemRun LemSafety LemWire LemInstr LemField LemTrans LemCheck.
Ltac Zify.zify_post_hook ::= Z.div_mod_to_equations.

Lemma wrap64_N z n : Z.of_N n = (z mod 2 ^ 64)%Z -> wrap64 z = n.
Proof. unfold wrap64. intros <-. apply N2Z.id. Qed.
Definition ares (a : aval) : eres := match a with AV v => EVal v | AE _ => EZeroDiv | AU _ => EUndefined end.
Definition ib (o : ibin) : binop :=
  match o with
  | IAdd => BAdd | ISub => BSub | IMul => BMul | IDiv => BDiv | IMod => BMod
  | IAnd => BAnd | IOr => BOr | IXor => BXor | IShl => BShl | IShr => BShr
  | IEq => BEq | INe => BNeq | IGt => BGt | ILt => BLt | IGe => BGte | ILe => BLte | ILAnd => BLAnd | ILOr => BLOr
  end.
Definition iu (o : iun) : unop := match o with INeg => UNeg | INot => UNot | ILNot => ULNot end.
Lemma bin_spec (lm : libm) o a b : a < 2 ^ 64 -> b < 2 ^ 64 ->
  match ibin_val o a b with
  | EVal v => bin_eval lm (ib o) a b = AV v /\ v < 2 ^ 64
  | EZeroDiv => bin_eval lm (ib o) a b = AE EArith
  | EUndefined => exists u, bin_eval lm (ib o) a b = AU u
  end.
Proof.
  intros A B. assert (T : forall x, truth x < 2 ^ 64) by (intros []; reflexivity).
  assert (PP : 2 ^ 64 = 18446744073709551616) by reflexivity.
  assert (PZ : (2 ^ 64 = 18446744073709551616)%Z) by reflexivity.
  assert (BIT : forall f, (forall x y i, N.testbit (f x y) i = true -> N.testbit x i = true \/ N.testbit y i = true) -> f a b < 2 ^ 64).
  { clear T PZ. intros f HF. destruct (N.eq_dec (f a b) 0) as [->|NZ]; [reflexivity|].
    apply N.log2_lt_pow2; [lia|]. apply N.nle_gt. intros L.
    destruct (HF a b (N.log2 (f a b))) as [X|X]. { now apply N.bit_log2. }
    - rewrite testbit_big with (n := 64) in X; [discriminate|exact A|lia].
    - rewrite testbit_big with (n := 64) in X; [discriminate|exact B|lia]. }
  destruct o; cbn [ibin_val ib bin_eval]; try (split; [reflexivity|apply T]).
  - split. { f_equal. symmetry. apply wrap64_N. rewrite N2Z.inj_mod, N2Z.inj_add. reflexivity. }
    unfold wrap64. rewrite PP in *. rewrite PZ. lia.
  - split. { f_equal. symmetry. apply wrap64_N. rewrite N2Z.inj_mod, N2Z.inj_sub, N2Z.inj_add by lia. change (Z.of_N (2 ^ 64)) with (2 ^ 64)%Z.
      replace (Z.of_N a + 2 ^ 64 - Z.of_N b)%Z with (Z.of_N a - Z.of_N b + 1 * 2 ^ 64)%Z by lia. apply Z.mod_add. lia. }
    unfold wrap64. rewrite PP in *. rewrite PZ. lia.
  - split. { f_equal. symmetry. apply wrap64_N. rewrite N2Z.inj_mod, N2Z.inj_mul. reflexivity. }
    unfold wrap64. rewrite PP in *. rewrite PZ. generalize (Z.of_N a * Z.of_N b)%Z. intros. lia.
  - destruct (N.eqb_spec b 0); [reflexivity|]. split; [reflexivity|]. apply N.le_lt_trans with a; auto.
    apply N.div_le_upper_bound; auto. nia.
  - destruct (N.eqb_spec b 0); [reflexivity|]. split; [reflexivity|]. apply N.lt_trans with b; auto. now apply N.mod_lt.
  - split; [reflexivity|]. apply BIT. intros x y i. rewrite N.land_spec. intros E. apply andb_prop in E. tauto.
  - split; [reflexivity|]. apply BIT. intros x y i. rewrite N.lor_spec. intros E. apply orb_prop in E. tauto.
  - split; [reflexivity|]. apply BIT. intros x y i. rewrite N.lxor_spec. destruct (N.testbit x i), (N.testbit y i); cbn; auto.
  - destruct (N.ltb_spec b 64), (N.leb_spec 64 b); try lia; [|eauto]. rewrite N.shiftl_mul_pow2.
    assert (E : wrap64 (Z.of_N a * 2 ^ Z.of_N b) = (a * 2 ^ b) mod 2 ^ 64).
    { apply wrap64_N. rewrite N2Z.inj_mod, N2Z.inj_mul, N2Z.inj_pow. reflexivity. }
    rewrite E. split; [reflexivity|]. apply N.mod_lt. discriminate.
  - destruct (N.ltb_spec b 64), (N.leb_spec 64 b); try lia; [|eauto]. rewrite N.shiftr_div_pow2. split; [reflexivity|].
    apply N.le_lt_trans with a; auto. apply N.div_le_upper_bound; [apply N.pow_nonzero; lia|].
    assert (1 <= 2 ^ b) by (apply N.neq_0_lt_0 || (pose proof (N.pow_nonzero 2 b); lia)). nia.
Qed.
Lemma un_spec (lm : libm) o a : a < 2 ^ 64 ->
  match iun_val o a with
  | EVal v => un_eval lm (iu o) a = AV v /\ v < 2 ^ 64
  | EZeroDiv => un_eval lm (iu o) a = AE EArith
  | EUndefined => exists u, un_eval lm (iu o) a = AU u
  end.
Proof.
  intros A. assert (PP : 2 ^ 64 = 18446744073709551616) by reflexivity.
  assert (PZ : (2 ^ 64 = 18446744073709551616)%Z) by reflexivity.
  destruct o; cbn [iun_val iu un_eval].
  - destruct (a =? 2 ^ 63); [eauto|]. unfold wrap64. rewrite PP in *. rewrite PZ. split; [f_equal|]; lia.
  - unfold wrap64. rewrite PP in *. rewrite PZ. split; [f_equal|]; lia.
  - split; [reflexivity|]. destruct (a =? 0); reflexivity.
Qed.
Lemma ieval_bound (lm : libm) val e : (forall k, val k < 2 ^ 64) -> forall v, ieval val e = EVal v -> v < 2 ^ 64.
Proof.
  intros HV. induction e; cbn [ieval]; intros x E.
  - injection E as <-. apply N.mod_lt. discriminate.
  - injection E as <-. auto.
  - destruct (ieval val e1); try discriminate. destruct (ieval val e2); try discriminate.
    pose proof (bin_spec lm o v v0 (IHe1 _ eq_refl) (IHe2 _ eq_refl)) as X. rewrite E in X. tauto.
  - destruct (ieval val e); try discriminate.
    pose proof (un_spec lm o v (IHe _ eq_refl)) as X. rewrite E in X. tauto.
Qed.

Lemma sub_app_l b p x y : sub b p (lenN (x ++ y)) = x ++ y -> p + lenN (x ++ y) <= lenN b -> sub b p (lenN x) = x.
Proof.
  intros E L. rewrite lenN_app in *. apply nthN_ext; rewrite lenN_sub by lia; auto. intros i Hi. rewrite nthN_sub by auto.
  pose proof (nthN_sub b p (lenN x + lenN y) i ltac:(lia)) as X. rewrite E, nthN_app in X. destruct (N.ltb_spec i (lenN x)); [auto|lia].
Qed.
Lemma sub_app_r b p x y : sub b p (lenN (x ++ y)) = x ++ y -> p + lenN (x ++ y) <= lenN b -> sub b (p + lenN x) (lenN y) = y.
Proof.
  intros E L. rewrite lenN_app in *. apply nthN_ext; rewrite lenN_sub by lia; auto. intros i Hi. rewrite nthN_sub by auto.
  pose proof (nthN_sub b p (lenN x + lenN y) (lenN x + i) ltac:(lia)) as X. rewrite E, nthN_app in X.
  destruct (N.ltb_spec (lenN x + i) (lenN x)); [lia|]. replace (p + lenN x + i) with (p + (lenN x + i)) by lia. rewrite <- X. f_equal. lia.
Qed.

Lemma push_ok s v : lenN (stk s) < 8 -> push s v = Cont (set_stk s (v :: stk s)).
Proof.
  intros L. unfold push, max_expr_stack, arr_push. destruct (N.leb_spec 8 (lenN (stk s))); [lia|].
  destruct (N.ltb_spec (lenN (stk s)) 8); [reflexivity|lia].
Qed.

Section Expr.
  Context {H : Type} (host : H -> request -> H * reply) (lm : libm) (bc : list N).
  Hypothesis WB : wf_bytes bc.
  Variable val : N -> N.
  Hypothesis VB : forall k, val k < 2 ^ 64.
  (** The host answers a field query with the field's value *)
  Hypothesis HV : forall h k, k < 2 ^ 16 -> let r := snd (host h (ask k 0x60 (cvar 8 0) HQuery)) in
    r_ok r = true /\ answer 8 0 r = val k.

  Lemma step_lit s h v : nthN bc (ip s) = 0x61 -> sub bc (ip s + 1) 8 = bytes_of LE 8 v -> ip s + 9 <= lenN bc ->
    lenN (stk s) < 8 -> interp host (step lm bc s) h = (SCont (set_ip (set_stk s (v mod 2 ^ 64 :: stk s)) (ip s + 9)), h, []).
  Proof.
    intros HO HS HI HK. enter_op HO. enter_args. rewrite fetch_at by (auto; cbn [wbytes]; lia). cbn [lift wbytes].
    rewrite HS. rewrite val_bytes. rewrite push_ok by (cbn [stk set_ip]; auto). cbn [interp].
    replace (ip s + 1 + 8) with (ip s + 9) by lia. reflexivity.
  Qed.
  Lemma step_field s h k : nthN bc (ip s) = 0x60 -> sub bc (ip s + 1) 2 = bytes_of LE 2 k -> k < 2 ^ 16 -> ip s + 3 <= lenN bc ->
    lenN (stk s) < 8 -> exists h' r, host h (ask k 0x60 (cvar 8 0) HQuery) = (h', r) /\
      interp host (step lm bc s) h =
        (SCont (set_ip (set_stk s (val k :: stk s)) (ip s + 3)), h', [(ask k 0x60 (cvar 8 0) HQuery, r)]).
  Proof.
    intros HO HS HK16 HI HK. pose proof (HV h k HK16) as HV1. destruct (host h (ask k 0x60 (cvar 8 0) HQuery)) as [h' r] eqn:HH.
    exists h', r. split; [reflexivity|]. destruct HV1 as [HR HA]. cbn [snd] in HR, HA.
    enter_op HO. unfold load_ctx. enter_args. rewrite fetch_at by (auto; cbn [wbytes]; lia). cbn [lift wbytes].
    rewrite HS. rewrite val_bytes. change (256 ^ N.of_nat 2) with (2 ^ 16). rewrite N.mod_small by auto.
    erewrite interp_call; [|exact HH|exact HR]. rewrite answer_got. cbn [wbytes]. rewrite HA.
    rewrite push_ok by (cbn [stk set_ip]; auto). cbn [interp]. replace (ip s + 1 + 2) with (ip s + 3) by lia. reflexivity.
  Qed.
  Lemma step_bin s h o x y rest : nthN bc (ip s) = ibin_op o -> ip s < lenN bc -> stk s = y :: x :: rest -> lenN rest < 8 ->
    interp host (step lm bc s) h =
      (match bin_eval lm (ib o) x y with
       | AV v => SCont (set_ip (set_stk s (v :: rest)) (ip s + 1))
       | AE e => SHalt e (set_ip (set_stk s rest) (ip s + 1))
       | AU u => SUndef u
       end, h, []).
  Proof.
    intros HO HI HS HL.
    assert (EX : step lm bc s = bin_op lm (set_ip s (ip s + 1)) (ib o)).
    { destruct o; cbn [ibin_op] in HO; rewrite (step_at lm bc s _ HI HO); rewrite align_no by reflexivity; reflexivity. }
    rewrite EX. unfold bin_op, pop. cbn [stk set_ip]. rewrite HS. cbn [stk set_stk].
    destruct (bin_eval lm (ib o) x y); [|reflexivity|reflexivity]. rewrite push_ok by (cbn [stk set_stk]; auto). reflexivity.
  Qed.
  Lemma step_un s h o x rest : nthN bc (ip s) = iun_op o -> ip s < lenN bc -> stk s = x :: rest -> lenN rest < 8 ->
    interp host (step lm bc s) h =
      (match un_eval lm (iu o) x with
       | AV v => SCont (set_ip (set_stk s (v :: rest)) (ip s + 1))
       | AE e => SHalt e (set_ip (set_stk s rest) (ip s + 1))
       | AU u => SUndef u
       end, h, []).
  Proof.
    intros HO HI HS HL.
    assert (EX : step lm bc s = un_op lm (set_ip s (ip s + 1)) (iu o)).
    { destruct o; cbn [iun_op] in HO; rewrite (step_at lm bc s _ HI HO); rewrite align_no by reflexivity; reflexivity. }
    rewrite EX. unfold un_op, pop. cbn [stk set_ip]. rewrite HS. cbn [stk set_stk].
    destruct (un_eval lm (iu o) x); [|reflexivity|reflexivity]. rewrite push_ok by (cbn [stk set_stk]; auto). reflexivity.
  Qed.

  Lemma reach_one s h s' h' t : ip s < lenN bc -> interp host (step lm bc s) h = (SCont s', h', t) -> reaches host lm bc s h s' h'.
  Proof. intros L E. eapply reach_step; [apply reach_refl|exact L|exact E]. Qed.

  Lemma postfix_spec e : forall s h, sub bc (ip s) (lenN (postfix e)) = postfix e -> ip s + lenN (postfix e) <= lenN bc ->
    keys_fit e -> lenN (stk s) + slots e <= 8 ->
    match ieval val e with
    | EVal v => exists h', reaches host lm bc s h (set_ip (set_stk s (v :: stk s)) (ip s + lenN (postfix e))) h'
    | EZeroDiv => exists s1 h1 s2, reaches host lm bc s h s1 h1 /\ ip s1 < lenN bc /\
        interp host (step lm bc s1) h1 = (SHalt EArith s2, h1, [])
    | EUndefined => exists s1 h1 u, reaches host lm bc s h s1 h1 /\ ip s1 < lenN bc /\
        interp host (step lm bc s1) h1 = (SUndef u, h1, [])
    end.
  Proof.
    induction e as [v|k|o a IHa b IHb|o a IHa]; intros s h HC HL HK HS; cbn [ieval slots keys_fit] in *.
    - cbn [postfix] in *. destruct (sub_cons _ _ _ _ HC HL) as [C1 C2]. rewrite lenN_cons in HL.
      change (lenN (bytes_of LE 8 v)) with 8 in *. exists h. eapply reach_one; [lia|]. rewrite lenN_cons. change (lenN (bytes_of LE 8 v) + 1) with 9.
      apply step_lit; auto; lia.
    - cbn [postfix] in *. destruct (sub_cons _ _ _ _ HC HL) as [C1 C2]. rewrite lenN_cons in HL.
      change (lenN (bytes_of LE 2 k)) with 2 in *.
      destruct (step_field s h k C1 C2 HK ltac:(lia) ltac:(lia)) as (h' & r & _ & X). exists h'. eapply reach_one; [lia|].
      rewrite lenN_cons. change (lenN (bytes_of LE 2 k) + 1) with 3. exact X.
    - cbn [postfix] in *. pose proof (sub_app_l _ _ _ _ HC HL) as CA. pose proof (sub_app_r _ _ _ _ HC HL) as CR.
      rewrite lenN_app in HL. assert (HL2 : ip s + lenN (postfix a) + lenN (postfix b ++ [ibin_op o]) <= lenN bc) by lia.
      pose proof (sub_app_l _ _ _ _ CR HL2) as CB. pose proof (sub_app_r _ _ _ _ CR HL2) as CO.
      rewrite lenN_app in HL2. change (lenN [ibin_op o]) with 1 in *. destruct HK as [KA KB].
      specialize (IHa s h CA ltac:(lia) KA ltac:(lia)). destruct (ieval val a) as [x| |] eqn:EA; [|exact IHa|exact IHa].
      destruct IHa as [h1 R1]. set (s1 := set_ip (set_stk s (x :: stk s)) (ip s + lenN (postfix a))) in *.
      specialize (IHb s1 h1 CB ltac:(cbn [ip s1 set_ip]; lia) KB ltac:(cbn [stk s1 set_ip set_stk]; rewrite lenN_cons; lia)).
      destruct (ieval val b) as [y| |] eqn:EB.
      2: { destruct IHb as (s2 & h2 & s3 & R2 & L2 & X). exists s2, h2, s3. split; [eapply reaches_trans; eauto|auto]. }
      2: { destruct IHb as (s2 & h2 & u & R2 & L2 & X). exists s2, h2, u. split; [eapply reaches_trans; eauto|auto]. }
      destruct IHb as [h2 R2]. pose proof (reaches_trans _ _ _ _ _ _ _ _ _ R1 R2) as R. clear R1 R2.
      set (s2 := set_ip (set_stk s1 (y :: stk s1)) (ip s1 + lenN (postfix b))) in *.
      pose proof (ieval_bound lm val a VB _ EA) as BX. pose proof (ieval_bound lm val b VB _ EB) as BY.
      assert (OP : nthN bc (ip s2) = ibin_op o).
      { pose proof (nthN_sub bc (ip s + lenN (postfix a) + lenN (postfix b)) 1 0 ltac:(lia)) as X. rewrite CO in X. rewrite N.add_0_r in X. exact (eq_sym X). }
      assert (I2 : ip s2 = ip s + lenN (postfix a) + lenN (postfix b)) by reflexivity.
      pose proof (step_bin s2 h2 o x y (stk s) OP ltac:(rewrite I2; lia) eq_refl ltac:(lia)) as ST.
      pose proof (bin_spec lm o x y BX BY) as SP. destruct (ibin_val o x y) as [v| |].
      + destruct SP as [SP _]. rewrite SP in ST. exists h2. eapply reach_step; [exact R|rewrite I2; lia|].
        replace (set_ip (set_stk s (v :: stk s)) (ip s + lenN (postfix a ++ postfix b ++ [ibin_op o]))) with (set_ip (set_stk s2 (v :: stk s)) (ip s2 + 1)); [exact ST|].
        rewrite I2, !lenN_app. change (lenN [ibin_op o]) with 1. unfold s2, s1. cbn [set_ip set_stk].
        replace (ip s + (lenN (postfix a) + (lenN (postfix b) + 1))) with (ip s + lenN (postfix a) + lenN (postfix b) + 1) by lia. reflexivity.
      + rewrite SP in ST. exists s2, h2. eexists. split; [exact R|]. split; [rewrite I2; lia|exact ST].
      + destruct SP as [u SP]. rewrite SP in ST. exists s2, h2, u. split; [exact R|]. split; [rewrite I2; lia|exact ST].
    - cbn [postfix] in *. pose proof (sub_app_l _ _ _ _ HC HL) as CA. pose proof (sub_app_r _ _ _ _ HC HL) as CO.
      rewrite lenN_app in HL. change (lenN [iun_op o]) with 1 in *.
      assert (S1 : lenN (stk s) < 8).
      { assert (0 < slots a) by (clear; induction a; cbn [slots]; lia). lia. }
      specialize (IHa s h CA ltac:(lia) HK ltac:(lia)). destruct (ieval val a) as [x| |] eqn:EA; [|exact IHa|exact IHa].
      destruct IHa as [h1 R1]. set (s1 := set_ip (set_stk s (x :: stk s)) (ip s + lenN (postfix a))) in *.
      pose proof (ieval_bound lm val a VB _ EA) as BX.
      assert (OP : nthN bc (ip s1) = iun_op o).
      { pose proof (nthN_sub bc (ip s + lenN (postfix a)) 1 0 ltac:(lia)) as X. rewrite CO in X. rewrite N.add_0_r in X. exact (eq_sym X). }
      assert (I1 : ip s1 = ip s + lenN (postfix a)) by reflexivity.
      pose proof (step_un s1 h1 o x (stk s) OP ltac:(rewrite I1; lia) eq_refl S1) as ST.
      pose proof (un_spec lm o x BX) as SP. destruct (iun_val o x) as [v| |].
      + destruct SP as [SP _]. rewrite SP in ST. exists h1. eapply reach_step; [exact R1|rewrite I1; lia|].
        replace (set_ip (set_stk s (v :: stk s)) (ip s + lenN (postfix a ++ [iun_op o]))) with (set_ip (set_stk s1 (v :: stk s)) (ip s1 + 1)); [exact ST|].
        rewrite I1, !lenN_app. change (lenN [iun_op o]) with 1. unfold s1. cbn [set_ip set_stk].
        replace (ip s + (lenN (postfix a) + 1)) with (ip s + lenN (postfix a) + 1) by lia. reflexivity.
      + rewrite SP in ST. exists s1, h1. eexists. split; [exact R1|]. split; [rewrite I1; lia|exact ST].
      + destruct SP as [u SP]. rewrite SP in ST. exists s1, h1, u. split; [exact R1|]. split; [rewrite I1; lia|exact ST].
  Qed.
End Expr.
