(** The types told to the host *)
From Verif Require Import Base SpecBytes LemBase ModelWord LemWord ModelFloat ModelTrans SpecVM ModelVM LemSafe LemRun LemJson SpecHost.
Ltac Zify.zify_post_hook ::= Z.div_mod_to_equations.

(** Without the size of the packet *)
Definition typed (m : mode) (rq : request) : Prop :=
  match rq_pl rq with
  | PInt w _ => number_size (rq_op rq) = Some (wbytes w)
  | PStr => m = Enc /\ text_type (rq_op rq) = true
  | PBuf p l => m = Dec /\ text_type (rq_op rq) = true \/ rq_op rq = 0x39
  | PNone => bare_type (rq_op rq) = true
  end.
Ltac at_ := repeat (cbv beta zeta; match goal with
  | |- asks _ (Cont _) => exact I
  | |- asks _ (Undef _) => exact I
  | |- asks _ (Halt _ _) => exact I
  | |- asks _ (lift _ _) => apply asks_lift; intros ? ?
  | |- asks _ (call _ _ _ _ _ _) => apply asks_call; [unfold typed; cbn [rq_op rq_pl]; try reflexivity; try assumption; auto|intros ?]
  | |- asks _ (Ask _ _) => split; [unfold typed; cbn [rq_op rq_pl]; try reflexivity; try assumption; auto|intros ?]
  | |- asks _ (if ?x then _ else _) => destruct x eqn:?
  | |- asks _ (match ?x with _ => _ end) => destruct x eqn:?
  end).
Lemma int_type_size ty t : int_type ty = Some t -> number_size ty = Some (wbytes (i_w t)).
Proof.
  destruct ty as [|p]; [discriminate|]. do 6 (destruct p as [p|p|]; try discriminate; try (intros [= <-]; reflexivity)).
Qed.
Lemma eng_size op w t : number_size op = Some (wbytes w) -> number_size (eng_op op t) = Some (wbytes (eng_w w t)).
Proof. destruct t; auto. Qed.
Lemma f_eng_size op w t : number_size op = Some (wbytes w) -> number_size (f_eng_op op t) = Some (wbytes (eng_w w t)).
Proof. destruct t; auto. Qed.
Lemma classify_int op t : classify op = CInt t -> number_size op = Some (wbytes (i_w t)).
Proof. destruct op as [|p]; [discriminate|]. do 8 (destruct p as [p|p|]; try discriminate; try (intros [= <-]; reflexivity)). Qed.
Lemma classify_float op t : classify op = CFloat t -> number_size op = Some (wbytes (f_width t)).
Proof. destruct op as [|p]; [discriminate|]. do 8 (destruct p as [p|p|]; try discriminate; try (intros [= <-]; reflexivity)). Qed.
Lemma classify_arr op t : classify op = CArrPre t -> number_size op = Some (wbytes t).
Proof. destruct op as [|p]; [discriminate|]. do 8 (destruct p as [p|p|]; try discriminate; try (intros [= <-]; reflexivity)). Qed.
Lemma classify_str op t : classify op = CStrPre t -> text_type op = true.
Proof. destruct op as [|p]; [discriminate|]. do 8 (destruct p as [p|p|]; try discriminate; try (intros [= <-]; reflexivity)). Qed.
Lemma enter_typed m bc s n : asks (typed m) (enter_array bc s n).
Proof. unfold enter_array, try_bulk, loop_push. at_. Qed.
Lemma exec_typed lm bc op s : asks (typed (md s)) (exec_op lm bc op s).
Proof.
  unfold exec_op. destruct (classify op) eqn:C.
  all: try (pose proof (classify_int _ _ C)); try (pose proof (classify_float _ _ C)); try (pose proof (classify_arr _ _ C)); try (pose proof (classify_str _ _ C)).
  all: try (unfold dup_op, emit, const_write, const_check, enum_check, read_back, range_check, crc_op, scale_lin, trans_poly, trans_spline,
      trans_int, io_int, io_float, io_scalar, io_bool, io_bit_u, io_bit_i, io_bit_bool, align_pad, align_fill, put_bits, get_bits, arr_pre, arr_fixed, arr_dynamic,
      str_null, str_pre, arr_eof, arr_end, raw_bytes,
      switch_op, switch_table, jump_if_not, jump_op, jump_to, bin_op, un_op, load_ctx, store_ctx, push, pop; at_; auto using eng_size, f_eng_size, enter_typed; eauto using int_type_size; fail).
  unfold const_check. at_. eapply int_type_size in Heqo. exact Heqo.
Qed.
Lemma step_typed lm bc s : asks (typed (md s)) (step lm bc s).
Proof.
  unfold step. apply asks_lift. intros op _. pose proof (exec_typed lm bc op (align op (set_ip s (ip s + 1)))) as X.
  destruct (align_same op (set_ip s (ip s + 1))) as (M & _). rewrite M in X. exact X.
Qed.
Lemma interp_asks {H} (host : H -> request -> H * reply) Q a : forall h x h' t, asks Q a -> interp host a h = (x, h', t) -> Forall (fun ev => Q (fst ev)) t.
Proof.
  induction a as [s|e s|u|rq k IH]; intros h x h' t A E; cbn [interp] in E; try (injection E as _ _ <-; constructor).
  destruct A as (A & B). destruct (host h rq) as (h1, r). destruct (interp host (k r) h1) as ((y, h2), t2) eqn:E2. injection E as _ _ <-.
  constructor; [exact A|]. eapply IH; eauto.
Qed.

Section Run.
  Context {H : Type} (host : H -> request -> H * reply) (lm : libm) (bc : list N).
  Hypothesis (WB : wf_bytes bc) (BL : lenN bc < 2 ^ 62).
  Lemma run_told fuel : forall s h o h' t, Inv False s -> run host lm bc fuel s h = (o, h', t) -> Forall (fun ev => told (md s) (dlen s) (fst ev)) t.
  Proof.
    induction fuel as [|f IH]; intros s h o h' t I R; cbn [run] in R; [injection R as _ _ <-; constructor|].
    destruct (N.leb_spec (lenN bc) (ip s)) as [L|L]; [injection R as _ _ <-; constructor|].
    pose proof (step_rel host lm bc False False False ltac:(contradiction) ltac:(contradiction) BL WB s h I L ltac:(contradiction)) as SR.
    destruct (interp host (step lm bc s) h) as ((x, h1), t1) eqn:E. destruct SR as (SR & LT).
    assert (T1 : Forall (fun ev => told (md s) (dlen s) (fst ev)) t1).
    { pose proof (interp_asks host _ _ _ _ _ _ (step_typed lm bc s) E) as TY. rewrite Forall_forall in *. intros ev J. specialize (TY ev J). specialize (LT ev J).
      unfold told, typed, lent in *. destruct (rq_pl (fst ev)); auto. tauto. }
    destruct x as [s'|e s'|u]; try (injection R as _ _ <-; exact T1).
    destruct (run host lm bc f s' h1) as ((o2, h2), t2) eqn:R2. injection R as _ _ <-. apply Forall_app. split; [exact T1|].
    rewrite <- (e_md _ _ _ _ _ _ SR), <- (e_len _ _ _ _ _ _ SR). eapply IH; [|exact R2]. apply (e_inv _ _ _ _ _ _ SR).
  Qed.
End Run.
