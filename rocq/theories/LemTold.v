(** Strings shown to the host while decoding lie in the packet behind their length, or before their NUL *)
From Verif Require Import Base SpecBytes LemBase ModelWord LemWord ModelFloat ModelTrans SpecVM ModelVM LemSafe LemRun LemJson SpecHost LemHost.
Ltac Zify.zify_post_hook ::= Z.div_mod_to_equations.

Definition raw_only (rq : request) : Prop := forall p l, rq_pl rq = PBuf p l -> rq_op rq = 0x39.
Ltac ar := repeat (cbv beta zeta; match goal with
  | |- asks _ (Cont _) => exact I
  | |- asks _ (Undef _) => exact I
  | |- asks _ (Halt _ _) => exact I
  | |- asks _ (lift _ _) => apply asks_lift; intros ? ?
  | |- asks _ (call _ _ _ _ _ _) => apply asks_call; [unfold raw_only; cbn [rq_op rq_pl]; try (intros; reflexivity); try discriminate|intros ?]
  | |- asks _ (Ask _ _) => split; [unfold raw_only; cbn [rq_op rq_pl]; try (intros; reflexivity); try discriminate|intros ?]
  | |- asks _ (if ?x then _ else _) => destruct x eqn:?
  | |- asks _ (match ?x with _ => _ end) => destruct x eqn:?
  end).
Lemma exec_raw lm bc op s : text_type op = false -> asks raw_only (exec_op lm bc op s).
Proof.
  intros NE. unfold exec_op. destruct (classify op) eqn:C.
  all: try (unfold dup_op, emit, const_write, const_check, enum_check, read_back, range_check, crc_op, scale_lin, trans_poly, trans_spline,
      trans_int, io_int, io_float, io_scalar, io_bool, io_bit_u, io_bit_i, io_bit_bool, align_pad, align_fill, put_bits, get_bits,
      arr_pre, arr_fixed, arr_dynamic, arr_eof, arr_end, enter_array, try_bulk, loop_push, raw_bytes,
      switch_op, switch_table, jump_if_not, jump_op, jump_to, bin_op, un_op, load_ctx, store_ctx, push, pop; ar; fail).
  all: exfalso; revert C NE; clear; destruct op as [|p]; try discriminate; do 8 (destruct p as [p|p|]; try discriminate).
Qed.
Lemma find_nul_spec n : forall b q acc r, find_nul b q n acc = Ok r -> exists k, r = acc + k /\ k <= N.of_nat n /\ (forall i, i < k -> nthN b (q + i) <> 0) /\ (k < N.of_nat n -> nthN b (q + k) = 0).
Proof.
  induction n as [|n IH]; intros b q acc r; cbn [find_nul].
  - intros [= <-]. exists 0. repeat split; lia.
  - rewrite mem_eq. destruct (N.ltb_spec q (lenN b)); cbn [bindR]; [|discriminate]. destruct (N.eqb_spec (nthN b q) 0) as [Z0|Z0].
    + intros [= <-]. exists 0. rewrite N.add_0_r. repeat split; try lia. now rewrite N.add_0_r.
    + intros R. apply IH in R as (k & -> & K & A & B). exists (1 + k). split; [lia|]. split; [lia|]. split.
      * intros i L. destruct (N.eq_dec i 0) as [-> |NZ]; [now rewrite N.add_0_r|]. replace (q + i) with (q + 1 + (i - 1)) by lia. apply A. lia.
      * intros L. replace (q + (1 + k)) with (q + 1 + k) by lia. apply B. lia.
Qed.
Lemma sub_nonzero b p n : p + n <= lenN b -> (forall i, i < n -> nthN b (p + i) <> 0) -> Forall (fun c => c <> 0) (sub b p n).
Proof.
  intros L A. apply Forall_forall. intros c J. apply In_nth with (d := 0) in J as (i & I & E). pose proof (lenN_sub b p n L) as LL. unfold lenN in LL.
  assert (N.of_nat i < n) by lia. rewrite <- E. specialize (A (N.of_nat i) ltac:(assumption)). rewrite <- nthN_sub with (n := n) in A by assumption. unfold nthN in A. now rewrite Nat2N.id in A.
Qed.
Lemma asks_impl (Q R : request -> Prop) a : (forall rq, Q rq -> R rq) -> asks Q a -> asks R a.
Proof. intros M. induction a; cbn; auto. intros (A & B). split; auto. Qed.

Lemma pre_text bc s op w : prefix_size op = Some (wbytes w) -> wf_bytes (buf s) -> asks (text_told (buf s) (en s)) (str_pre bc s op w).
Proof.
  intros PS WF. unfold str_pre. apply asks_lift. intros (key, p) _. cbv zeta. set (s1 := set_ip s p). change (md s1) with (md s). change (buf s1) with (buf s). change (en s1) with (en s). change (cur s1) with (cur s). change (dlen s1) with (dlen s).
  destruct (md s).
  - split; [intros q l X; discriminate X|]. intros r. apply (asks_impl raw_only); [intros rq A q l E B; exfalso; apply B; eauto|]. ar.
  - destruct (dlen s <? cur s + wbytes w) eqn:L1; [exact I|]. apply asks_lift. intros n RW. destruct (dlen s <? cur s + wbytes w + n) eqn:L2; [exact I|].
    apply asks_lift. intros l SL. unfold dlen in *. rewrite read_word_eq in RW by exact WF. rewrite slice_eq in SL.
    replace (cur s + wbytes w <=? lenN (buf s)) with true in RW by lia. injection RW as RW. replace (cur s + wbytes w + n <=? lenN (buf s)) with true in SL by lia. injection SL as SL.
    assert (LL : lenN l = n) by (rewrite <- SL; apply lenN_sub; lia).
    apply asks_call; [|intros r; apply (asks_impl raw_only); [intros rq A q l0 E B; exfalso; apply B; eauto|]; ar].
    intros q l0 X B. cbn [rq_pl rq_op] in *. injection X as <- <-. rewrite LL. split; [exact SL|]. split; [lia|]. left. exists (wbytes w). split; [exact PS|]. split; [lia|].
    replace (cur s + wbytes w - wbytes w) with (cur s) by lia. exact RW.
Qed.
Lemma null_text bc s : asks (text_told (buf s) (en s)) (str_null bc s).
Proof.
  unfold str_null. apply asks_lift. intros (key, p) _. apply asks_lift. intros (max, p1) _. cbv zeta. set (s1 := set_ip s p1). change (md s1) with (md s). change (buf s1) with (buf s). change (cur s1) with (cur s).
  change (dlen s1) with (dlen s). destruct (md s).
  - split; [intros q l X; discriminate X|]. intros r. apply (asks_impl raw_only); [intros rq A q l E B; exfalso; apply B; eauto|]. ar.
  - set (rem := if cur s <=? dlen s then _ else _). set (search := if rem <? max then rem else max). apply asks_lift. intros len F. apply find_nul_spec in F as (k & F0 & K & A & B). change (0 + k) with k in F0. subst k.
    destruct (dlen (set_cur s1 (cur s + len)) <=? cur (set_cur s1 (cur s + len))) eqn:L; [exact I|]. change (dlen (set_cur s1 (cur s + len))) with (lenN (buf s)) in L. change (cur (set_cur s1 (cur s + len))) with (cur s + len) in L.
    apply asks_lift. intros l SL. change (buf (set_cur s1 (cur s + len))) with (buf s) in SL. rewrite slice_eq in SL. destruct (N.leb_spec (cur s + len) (lenN (buf s))) as [LE1|]; [|discriminate SL]. injection SL as SL.
    assert (LL : lenN l = len) by (rewrite <- SL; apply lenN_sub; lia).
    apply asks_call; [|intros r; apply (asks_impl raw_only); [intros rq A0 q l0 E B0; exfalso; apply B0; eauto|]; ar].
    intros q l0 X B0. cbn [rq_pl rq_op rq_how] in *. injection X as <- <-. rewrite LL. split; [exact SL|]. split; [lia|]. right. split; [reflexivity|]. exists max. split; [reflexivity|].
    split; [rewrite <- SL; apply sub_nonzero; auto|]. split; [lia|]. intros M. apply B. unfold search. unfold rem, dlen in *. destruct (N.leb_spec (cur s) (lenN (buf s))); [|lia]. destruct (N.ltb_spec (lenN (buf s) - cur s) max); lia.
Qed.
Lemma step_text lm bc s : wf_bytes (buf s) -> asks (text_told (buf s) (en s)) (step lm bc s).
Proof.
  intros WF. unfold step. apply asks_lift. intros op _. destruct (align_same op (set_ip s (ip s + 1))) as (M & B & E).
  change (buf (set_ip s (ip s + 1))) with (buf s) in B. change (en (set_ip s (ip s + 1))) with (en s) in E. set (s1 := align op _) in *. clearbody s1. rewrite <- B, <- E. rewrite <- B in WF.
  destruct (text_type op) eqn:T.
  - unfold text_type in T. assert (D : op = 0x30 \/ op = 0x31 \/ op = 0x32 \/ op = 0x33) by lia. destruct D as [-> | [-> | [-> | ->]]].
    + apply null_text.
    + now apply (pre_text bc s1 0x31 W1).
    + now apply (pre_text bc s1 0x32 W2).
    + now apply (pre_text bc s1 0x33 W4).
  - apply (asks_impl raw_only); [intros rq A q l X Y; exfalso; apply Y; eauto|]. now apply exec_raw.
Qed.

Lemma reached_text {H} (host : H -> request -> H * reply) lm bc m data h s h1 x h2 t : wf_bytes bc -> lenN bc < 2 ^ 62 -> wf_bytes data ->
  reaches host lm bc (init m data) h s h1 -> interp host (step lm bc s) h1 = (x, h2, t) -> Forall (fun ev => text_told (buf s) (en s) (fst ev)) t.
Proof.
  intros WB BL WD R E. assert (I : Inv False s).
  { clear E. remember (init m data) as s0. induction R as [|s0 h0 s1 h3 s2 h4 t0 R IH L E0]; [subst; now apply init_Inv|].
    assert (I1 : Inv False s1) by auto.
    pose proof (step_rel host lm bc False False False ltac:(contradiction) ltac:(contradiction) BL WB s1 h3 I1 L ltac:(contradiction)) as SR. rewrite E0 in SR. apply (e_inv _ _ _ _ _ _ (proj1 SR)). }
  eapply interp_asks; [|exact E]. apply step_text. apply (i_wf _ _ I).
Qed.
