(** String instructions. *)
From Verif Require Import Base SpecBytes LemBase ModelWord LemWord ModelBits LemBits ModelFloat ModelTrans
  ModelVM SpecVM LemAct LemSafe LemRun LemSafety LemWire LemInstr LemField LemTrans LemCheck.
Ltac Zify.zify_post_hook ::= Z.div_mod_to_equations.

Lemma cstr_text l : text l -> cstr l = l.
Proof.
  induction 1 as [|b l B F IH]; cbn [cstr]; auto. rewrite N.mod_small by lia.
  destruct (N.eqb_spec b 0); [lia|]. now rewrite IH.
Qed.
Lemma text_wf l : text l -> wf_bytes l.
Proof. unfold text, wf_bytes. apply Forall_impl. intros. lia. Qed.
Lemma text_cut max l : text l -> text (cut max l).
Proof.
  unfold text, cut. rewrite !Forall_forall. intros F x I. apply F.
  rewrite <- (firstn_skipn (N.to_nat max) l). apply in_or_app. auto.
Qed.
Lemma lenN_cut max l : lenN (cut max l) = N.min max (lenN l).
Proof. unfold cut, lenN. rewrite firstn_length. lia. Qed.
Lemma find_nul_hit b : forall t p n acc, text t -> sub b p (lenN t) = t -> p + lenN t <= lenN b ->
  lenN t <= N.of_nat n -> (lenN t = N.of_nat n \/ (p + lenN t < lenN b /\ nthN b (p + lenN t) = 0)) ->
  find_nul b p n acc = Ok (acc + lenN t).
Proof.
  induction t as [|x t IH]; intros p n acc T S L HN C.
  - destruct n; cbn [find_nul]; [now rewrite N.add_0_r|]. destruct C as [C|[C1 C2]]; [discriminate C|].
    change (lenN (@nil N)) with 0 in *. rewrite N.add_0_r in *. rewrite mem_eq.
    destruct (N.ltb_spec p (lenN b)); [|lia]. cbn [bindR]. rewrite C2. reflexivity.
  - destruct (sub_cons _ _ _ _ S L) as [S1 S2]. rewrite lenN_cons in *. destruct n; [lia|]. cbn [find_nul].
    rewrite mem_eq. destruct (N.ltb_spec p (lenN b)); [|lia]. cbn [bindR]. rewrite S1. inversion T; subst.
    destruct (N.eqb_spec (nthN b p) 0); [lia|]. rewrite IH; auto; try lia.
    + f_equal. lia.
    + destruct C as [C|[C1 C2]]; [left; lia|right]. split; [lia|]. replace (p + 1 + lenN t) with (p + (lenN t + 1)) by lia. auto.
Qed.

Section Str.
  Context {H : Type} (host : H -> request -> H * reply) (lm : libm) (bc : list N).
  Hypothesis WB : wf_bytes bc.

  Lemma str_null_enc s h h' r l : opcode_at bc s = 0x30 -> boff s < 8 -> md s = Enc -> ip s + 5 <= lenN bc ->
    let max := operand_at bc s 3 2 in
    let rq := ask (key_at bc s) 0x30 PStr (HString 0x30 max) in
    host h rq = (h', r) -> r_ok r = true -> r_str r = Some l -> text l ->
    let c := cut max l in
    let s1 := set_ip (set_boff (set_cur s (byte_pos s)) 0) (ip s + 5) in
    interp host (step lm bc s) h =
      (if byte_pos s + lenN c + 1 <=? lenN (buf s)
       then SCont (set_opt (set_cur (set_buf s1 (put (buf s) (byte_pos s) (c ++ [0]))) (byte_pos s + lenN c + 1)) false)
       else SHalt EOob s1, h', [(rq, r)]).
  Proof.
    intros HO B M HI max rq HH HR HS T c s1. enter_op HO. unfold str_null. enter_args.
    rewrite key_eq by (auto; lia). cbn [lift]. rewrite fetch_operand by (auto; cbn [wbytes]; lia). cbn [lift wbytes].
    fold max. enter_args. rewrite M. erewrite interp_ask; [|exact HH]. rewrite HR.
    unfold got_str. rewrite HS, cstr_text by auto.
    assert (EL : (if max <? lenN l then max else lenN l) = lenN c).
    { unfold c. rewrite lenN_cut. destruct (N.ltb_spec max (lenN l)); lia. }
    rewrite EL. replace (firstn (N.to_nat (lenN c)) l) with c.
    2: { unfold c. rewrite lenN_cut. unfold cut. replace (N.to_nat (N.min max (lenN l))) with (Nat.min (N.to_nat max) (length l)) by (unfold lenN; lia).
         rewrite <- firstn_firstn, firstn_all. reflexivity. }
    replace (ip s + 3 + 2) with (ip s + 5) by lia.
    destruct (N.ltb_spec (lenN (buf s)) (byte_pos s + lenN c + 1)), (N.leb_spec (byte_pos s + lenN c + 1) (lenN (buf s))); try lia.
    - reflexivity.
    - rewrite splice_eq. destruct (N.leb_spec (byte_pos s + lenN c) (lenN (buf s))); [|lia]. cbn [lift].
      rewrite sto_eq. rewrite lenN_put by lia. destruct (N.ltb_spec (byte_pos s + lenN c) (lenN (buf s))); [|lia]. cbn [lift interp].
      assert (EP : put (put (buf s) (byte_pos s) c) (byte_pos s + lenN c) [0] = put (buf s) (byte_pos s) (c ++ [0])).
      { apply nthN_ext.
        - rewrite !lenN_put; auto; rewrite ?lenN_put, ?lenN_app; change (lenN [0]) with 1; lia.
        - intros i Hi. change (lenN [0]) with 1 in *.
          rewrite !nthN_put by (rewrite ?lenN_put, ?lenN_app; change (lenN [0]) with 1; lia). rewrite lenN_app. change (lenN [0]) with 1.
          rewrite nthN_app.
          destruct (N.leb_spec (byte_pos s + lenN c) i), (N.ltb_spec i (byte_pos s + lenN c + 1)), (N.leb_spec (byte_pos s) i),
            (N.ltb_spec i (byte_pos s + lenN c)), (N.ltb_spec i (byte_pos s + (lenN c + 1))), (N.ltb_spec (i - byte_pos s) (lenN c)); cbn [andb]; try lia; auto.
          f_equal. lia. }
      rewrite EP. reflexivity.
  Qed.

  Lemma str_null_dec s h h' r c : opcode_at bc s = 0x30 -> boff s < 8 -> md s = Dec -> ip s + 5 <= lenN bc ->
    let max := operand_at bc s 3 2 in
    text c -> lenN c <= max -> byte_pos s + lenN c + 1 <= lenN (buf s) ->
    sub (buf s) (byte_pos s) (lenN c + 1) = c ++ [0] ->
    let rq := ask (key_at bc s) 0x30 (PBuf (byte_pos s) c) (HString 0x30 max) in
    host h rq = (h', r) -> r_ok r = true -> r_bytes r = [] ->
    let s1 := set_ip (set_boff (set_cur s (byte_pos s)) 0) (ip s + 5) in
    interp host (step lm bc s) h =
      (SCont (set_opt (set_cur s1 (byte_pos s + lenN c + 1)) false), h', [(rq, r)]).
  Proof.
    intros HO B M HI max T LC LB SB rq HH HR HW s1. enter_op HO. unfold str_null. enter_args.
    rewrite key_eq by (auto; lia). cbn [lift]. rewrite fetch_operand by (auto; cbn [wbytes]; lia). cbn [lift wbytes].
    fold max. enter_args. rewrite M.
    assert (SC : sub (buf s) (byte_pos s) (lenN c) = c).
    { apply nthN_ext; rewrite lenN_sub by lia; auto. intros i Hi. rewrite nthN_sub by auto.
      pose proof (nthN_sub (buf s) (byte_pos s) (lenN c + 1) i ltac:(lia)) as X. rewrite SB, nthN_app in X.
      destruct (N.ltb_spec i (lenN c)); [|lia]. auto. }
    assert (SN : nthN (buf s) (byte_pos s + lenN c) = 0).
    { pose proof (nthN_sub (buf s) (byte_pos s) (lenN c + 1) (lenN c) ltac:(lia)) as X. rewrite SB, nthN_app in X.
      destruct (N.ltb_spec (lenN c) (lenN c)); [lia|]. rewrite <- X, N.sub_diag. reflexivity. }
    destruct (N.leb_spec (byte_pos s) (lenN (buf s))); [|lia].
    rewrite (find_nul_hit (buf s) c); auto; try lia.
    2: { destruct (N.ltb_spec (lenN (buf s) - byte_pos s) max); lia. }
    cbn [lift]. replace (0 + lenN c) with (lenN c) by lia. enter_args.
    destruct (N.leb_spec (lenN (buf s)) (byte_pos s + lenN c)); [lia|].
    rewrite slice_eq. destruct (N.leb_spec (byte_pos s + lenN c) (lenN (buf s))); [|lia]. cbn [lift]. rewrite SC.
    erewrite interp_call; [|exact HH|exact HR]. unfold host_write. rewrite HW. cbn [map]. rewrite firstn_nil.
    rewrite splice_eq. change (lenN (@nil N)) with 0. destruct (N.leb_spec (byte_pos s + 0) (lenN (buf s))); [|lia]. cbn [lift interp].
    rewrite put_nil by lia. replace (ip s + 3 + 2) with (ip s + 5) by lia. reflexivity.
  Qed.

  Lemma str_pre_class op n : prefix_bytes op = Some n -> exists w, wbytes w = n /\ classify op = CStrPre w /\ aligns op = true.
  Proof.
    intros E. unfold prefix_bytes in E.
    repeat match type of E with match ?x with _ => _ end = Some _ => destruct x; try discriminate E;
      try (injection E as <-; eexists; split; [|split]; [|reflexivity|reflexivity]; reflexivity) end.
  Qed.
  Lemma str_pre_enc s h h' r l n : prefix_bytes (opcode_at bc s) = Some n -> boff s < 8 -> md s = Enc -> ip s + 3 <= lenN bc ->
    let max := 2 ^ (8 * n) - 1 in
    let rq := ask (key_at bc s) (opcode_at bc s) PStr (HString (opcode_at bc s) max) in
    host h rq = (h', r) -> r_ok r = true -> r_str r = Some l -> text l ->
    let c := cut max l in
    let s1 := set_ip (set_boff (set_cur s (byte_pos s)) 0) (ip s + 3) in
    interp host (step lm bc s) h =
      (if byte_pos s + n + lenN c <=? lenN (buf s)
       then SCont (set_opt (set_cur (set_buf s1 (put (buf s) (byte_pos s) (bytes_of (en s) (N.to_nat n) (lenN c) ++ c)))
                                    (byte_pos s + n + lenN c)) false)
       else SHalt EOob s1, h', [(rq, r)]).
  Proof.
    intros HT B M HI max rq HH HR HS T c s1. destruct (str_pre_class _ _ HT) as (w & EW & EC & EA).
    rewrite (step_at lm bc s _ ltac:(lia) eq_refl), align_eq by auto. rewrite byte_pos_ip. unfold exec_op. rewrite EC.
    unfold str_pre. enter_args. rewrite key_eq by (auto; lia). cbn [lift]. enter_args. rewrite M, EW.
    erewrite interp_ask; [|exact HH]. rewrite HR. unfold got_str. rewrite HS, cstr_text by auto. fold max.
    assert (EL : (if max <? lenN l then max else lenN l) = lenN c).
    { unfold c. rewrite lenN_cut. clearbody max. destruct (N.ltb_spec max (lenN l)); lia. }
    rewrite EL. replace (firstn (N.to_nat (lenN c)) l) with c.
    2: { unfold c. rewrite lenN_cut. unfold cut. clearbody max. clear. replace (N.to_nat (N.min max (lenN l))) with (Nat.min (N.to_nat max) (length l)) by (unfold lenN; lia).
         rewrite <- firstn_firstn, firstn_all. reflexivity. }
    clear EL. clearbody c.
    destruct (N.ltb_spec (lenN (buf s)) (byte_pos s + n + lenN c)), (N.leb_spec (byte_pos s + n + lenN c) (lenN (buf s))); try lia.
    - reflexivity.
    - rewrite write_word_eq, EW. destruct (N.leb_spec (byte_pos s + n) (lenN (buf s))); [|lia]. cbn [lift].
      rewrite nbytes_w, EW. set (hd := bytes_of (en s) (N.to_nat n) (lenN c)).
      assert (LH : lenN hd = n) by (unfold hd; rewrite lenN_bytes_of; lia).
      rewrite splice_eq, lenN_put by lia. destruct (N.leb_spec (byte_pos s + n + lenN c) (lenN (buf s))); [|lia]. cbn [lift interp].
      assert (EP : put (put (buf s) (byte_pos s) hd) (byte_pos s + n) c = put (buf s) (byte_pos s) (hd ++ c)).
      { clear - LH H0. clearbody hd. apply nthN_ext.
        - rewrite !lenN_put; auto; rewrite ?lenN_put, ?lenN_app; lia.
        - intros i Hi. rewrite !nthN_put by (rewrite ?lenN_put, ?lenN_app; lia). rewrite lenN_app, nthN_app, LH.
          destruct (N.leb_spec (byte_pos s + n) i), (N.ltb_spec i (byte_pos s + n + lenN c)), (N.leb_spec (byte_pos s) i),
            (N.ltb_spec i (byte_pos s + n)), (N.ltb_spec i (byte_pos s + (n + lenN c))), (N.ltb_spec (i - byte_pos s) n); cbn [andb]; try lia; auto.
          f_equal. lia. }
      rewrite EP. reflexivity.
  Qed.
  Lemma str_pre_dec s h h' r c n : prefix_bytes (opcode_at bc s) = Some n -> boff s < 8 -> md s = Dec -> ip s + 3 <= lenN bc ->
    wf_bytes (buf s) -> let max := 2 ^ (8 * n) - 1 in
    lenN c <= max -> byte_pos s + n + lenN c <= lenN (buf s) ->
    sub (buf s) (byte_pos s) (n + lenN c) = bytes_of (en s) (N.to_nat n) (lenN c) ++ c ->
    let rq := ask (key_at bc s) (opcode_at bc s) (PBuf (byte_pos s + n) c) (HString (opcode_at bc s) max) in
    host h rq = (h', r) -> r_ok r = true -> r_bytes r = [] ->
    let s1 := set_ip (set_boff (set_cur s (byte_pos s)) 0) (ip s + 3) in
    interp host (step lm bc s) h =
      (SCont (set_opt (set_cur s1 (byte_pos s + n + lenN c)) false), h', [(rq, r)]).
  Proof.
    intros HT B M HI WF max LC LB SB rq HH HR HW s1. destruct (str_pre_class _ _ HT) as (w & EW & EC & EA).
    rewrite (step_at lm bc s _ ltac:(lia) eq_refl), align_eq by auto. rewrite byte_pos_ip. unfold exec_op. rewrite EC.
    unfold str_pre. enter_args. rewrite key_eq by (auto; lia). cbn [lift]. enter_args. rewrite M, EW.
    assert (LH : lenN (bytes_of (en s) (N.to_nat n) (lenN c)) = n) by (rewrite lenN_bytes_of; lia).
    assert (SH : sub (buf s) (byte_pos s) n = bytes_of (en s) (N.to_nat n) (lenN c)).
    { apply nthN_ext; rewrite lenN_sub by lia; auto. intros i Hi. rewrite nthN_sub by auto.
      pose proof (nthN_sub (buf s) (byte_pos s) (n + lenN c) i ltac:(lia)) as X. rewrite SB, nthN_app, LH in X.
      destruct (N.ltb_spec i n); [|lia]. auto. }
    assert (SC : sub (buf s) (byte_pos s + n) (lenN c) = c).
    { apply nthN_ext; rewrite lenN_sub by lia; auto. intros i Hi. rewrite nthN_sub by auto.
      pose proof (nthN_sub (buf s) (byte_pos s) (n + lenN c) (n + i) ltac:(lia)) as X. rewrite SB, nthN_app, LH in X.
      destruct (N.ltb_spec (n + i) n); [lia|]. replace (byte_pos s + n + i) with (byte_pos s + (n + i)) by lia. rewrite <- X. f_equal. lia. }
    destruct (N.ltb_spec (lenN (buf s)) (byte_pos s + n)); [lia|].
    rewrite read_word_eq, EW by auto. destruct (N.leb_spec (byte_pos s + n) (lenN (buf s))); [|lia]. cbn [lift].
    rewrite SH, val_bytes, N2Nat.id. rewrite N.mod_small.
    2: { replace (256 ^ n) with (2 ^ (8 * n)) by (rewrite N.pow_mul_r; reflexivity). 
         pose proof (N.pow_nonzero 2 (8 * n) ltac:(lia)). unfold max in LC. lia. }
    destruct (N.ltb_spec (lenN (buf s)) (byte_pos s + n + lenN c)); [lia|].
    rewrite slice_eq. destruct (N.leb_spec (byte_pos s + n + lenN c) (lenN (buf s))); [|lia]. cbn [lift]. rewrite SC.
    erewrite interp_call; [|exact HH|exact HR]. unfold host_write. rewrite HW. cbn [map]. rewrite firstn_nil.
    rewrite splice_eq. change (lenN (@nil N)) with 0. destruct (N.leb_spec (byte_pos s + n + 0) (lenN (buf s))); [|lia]. cbn [lift interp].
    rewrite put_nil by lia. reflexivity.
  Qed.
End Str.

(** Round trips *)
Lemma str_null_round_trip {H} (host : H -> request -> H * reply) lm bc s h h' r l :
  wf_bytes bc -> opcode_at bc s = 0x30 -> boff s < 8 -> md s = Enc -> ip s + 5 <= lenN bc ->
  let max := operand_at bc s 3 2 in let c := cut max l in
  let rq := ask (key_at bc s) 0x30 PStr (HString 0x30 max) in
  host h rq = (h', r) -> r_ok r = true -> r_str r = Some l -> text l ->
  byte_pos s + lenN c + 1 <= lenN (buf s) ->
  exists s', interp host (step lm bc s) h = (SCont s', h', [(rq, r)]) /\
    lenN (buf s') = lenN (buf s) /\ position s' = 8 * (byte_pos s + lenN c + 1) /\ ip s' = ip s + 5 /\
    sub (buf s') (byte_pos s) (lenN c + 1) = c ++ [0] /\
    (forall i, i < byte_pos s \/ byte_pos s + lenN c + 1 <= i -> nthN (buf s') i = nthN (buf s) i) /\
  forall (H2 : Type) (host2 : H2 -> request -> H2 * reply) d g g' r2,
    md d = Dec -> boff d < 8 -> ip d = ip s -> byte_pos d = byte_pos s -> byte_pos s + lenN c + 1 <= lenN (buf d) ->
    sub (buf d) (byte_pos s) (lenN c + 1) = sub (buf s') (byte_pos s) (lenN c + 1) ->
    let rq2 := ask (key_at bc s) 0x30 (PBuf (byte_pos s) c) (HString 0x30 max) in
    host2 g rq2 = (g', r2) -> r_ok r2 = true -> r_bytes r2 = [] ->
    exists d', interp host2 (step lm bc d) g = (SCont d', g', [(rq2, r2)]) /\ buf d' = buf d /\
      position d' = position s' /\ ip d' = ip s'.
Proof.
  intros WB HO B M HI max c rq HH HR HS T HL.
  pose proof (str_null_enc host lm bc WB s h h' r l HO B M HI HH HR HS T) as X. cbv zeta in X. fold max c rq in X.
  destruct (N.leb_spec (byte_pos s + lenN c + 1) (lenN (buf s))); [|lia].
  assert (LC : lenN (c ++ [0]) = lenN c + 1) by (now rewrite lenN_app).
  eexists. split; [exact X|]. cbn [buf set_opt set_cur set_buf ip set_ip].
  split; [apply lenN_put; lia|]. split; [unfold position; cbn [cur boff set_opt set_cur set_buf set_ip set_boff]; lia|].
  split; [reflexivity|].
  assert (SB : sub (put (buf s) (byte_pos s) (c ++ [0])) (byte_pos s) (lenN c + 1) = c ++ [0]).
  { pose proof (sub_put_here (buf s) (byte_pos s) (c ++ [0]) ltac:(lia)) as Y. rewrite LC in Y. exact Y. }
  split; [exact SB|]. split.
  { intros i Hi. rewrite nthN_put by lia. rewrite LC. destruct (N.leb_spec (byte_pos s) i), (N.ltb_spec i (byte_pos s + (lenN c + 1))); cbn [andb]; auto; lia. }
  intros H2 host2 d g g' r2 MD BD ID PD LD SD HH2 HR2 HW2. rewrite SB in SD.
  assert (OD : opcode_at bc d = 0x30) by (unfold opcode_at in *; now rewrite ID).
  assert (TC : text c) by (now apply text_cut).
  assert (LM : lenN c <= max) by (unfold c; rewrite lenN_cut; lia).
  pose proof (str_null_dec host2 lm bc WB d g g' r2 c OD BD MD) as Y. cbv zeta in Y.
  unfold operand_at, key_at in Y. unfold operand_at in Y. rewrite ID, PD in Y.
  specialize (Y HI TC LM LD SD HH2 HR2 HW2). eexists. split; [exact Y|]. split; [reflexivity|].
  split; [unfold position; cbn [cur boff set_opt set_cur set_buf set_ip set_boff]; lia|]. reflexivity.
Qed.
Lemma str_pre_round_trip {H} (host : H -> request -> H * reply) lm bc s h h' r l n :
  wf_bytes bc -> prefix_bytes (opcode_at bc s) = Some n -> boff s < 8 -> md s = Enc -> ip s + 3 <= lenN bc ->
  let max := 2 ^ (8 * n) - 1 in let c := cut max l in
  let rq := ask (key_at bc s) (opcode_at bc s) PStr (HString (opcode_at bc s) max) in
  host h rq = (h', r) -> r_ok r = true -> r_str r = Some l -> text l ->
  byte_pos s + n + lenN c <= lenN (buf s) ->
  exists s', interp host (step lm bc s) h = (SCont s', h', [(rq, r)]) /\
    lenN (buf s') = lenN (buf s) /\ position s' = 8 * (byte_pos s + n + lenN c) /\ ip s' = ip s + 3 /\
    sub (buf s') (byte_pos s) (n + lenN c) = bytes_of (en s) (N.to_nat n) (lenN c) ++ c /\
    (forall i, i < byte_pos s \/ byte_pos s + n + lenN c <= i -> nthN (buf s') i = nthN (buf s) i) /\
  forall (H2 : Type) (host2 : H2 -> request -> H2 * reply) d g g' r2, wf_bytes (buf d) ->
    md d = Dec -> boff d < 8 -> ip d = ip s -> en d = en s -> byte_pos d = byte_pos s -> byte_pos s + n + lenN c <= lenN (buf d) ->
    sub (buf d) (byte_pos s) (n + lenN c) = sub (buf s') (byte_pos s) (n + lenN c) ->
    let rq2 := ask (key_at bc s) (opcode_at bc s) (PBuf (byte_pos s + n) c) (HString (opcode_at bc s) max) in
    host2 g rq2 = (g', r2) -> r_ok r2 = true -> r_bytes r2 = [] ->
    exists d', interp host2 (step lm bc d) g = (SCont d', g', [(rq2, r2)]) /\ buf d' = buf d /\
      position d' = position s' /\ ip d' = ip s'.
Proof.
  intros WB HO B M HI max c rq HH HR HS T HL.
  pose proof (str_pre_enc host lm bc WB s h h' r l n HO B M HI HH HR HS T) as X. cbv zeta in X. fold max c rq in X.
  assert (LM : lenN c <= max) by (unfold c; rewrite lenN_cut; apply N.le_min_l).
  destruct (N.leb_spec (byte_pos s + n + lenN c) (lenN (buf s))); [|lia].
  assert (LH : lenN (bytes_of (en s) (N.to_nat n) (lenN c)) = n) by (rewrite lenN_bytes_of; lia).
  assert (LC : lenN (bytes_of (en s) (N.to_nat n) (lenN c) ++ c) = n + lenN c) by (now rewrite lenN_app, LH).
  set (w := bytes_of (en s) (N.to_nat n) (lenN c) ++ c) in *.
  eexists. split; [exact X|]. cbn [buf set_opt set_cur set_buf ip set_ip].
  assert (SB : sub (put (buf s) (byte_pos s) w) (byte_pos s) (n + lenN c) = w).
  { pose proof (sub_put_here (buf s) (byte_pos s) w ltac:(lia)) as Y. rewrite LC in Y. exact Y. }
  split; [apply lenN_put; lia|]. split; [unfold position; cbn [cur boff set_opt set_cur set_buf set_ip set_boff]; lia|].
  split; [reflexivity|]. split; [exact SB|]. split.
  { intros i Hi. rewrite nthN_put by lia. rewrite LC. destruct (N.leb_spec (byte_pos s) i), (N.ltb_spec i (byte_pos s + (n + lenN c))); cbn [andb]; auto; lia. }
  intros H2 host2 d g g' r2 WD MD BD ID ED PD LD SD HH2 HR2 HW2. rewrite SB in SD.
  assert (OD : opcode_at bc d = opcode_at bc s) by (unfold opcode_at in *; now rewrite ID).
  pose proof (str_pre_dec host2 lm bc WB d g g' r2 c n) as Y. cbv zeta in Y. fold max in Y.
  unfold key_at, operand_at in Y. rewrite OD, ID, PD, ED in Y.
  specialize (Y HO BD MD HI WD LM LD SD HH2 HR2 HW2). eexists. split; [exact Y|]. split; [reflexivity|].
  split; [unfold position; cbn [cur boff set_opt set_cur set_buf set_ip set_boff]; lia|]. reflexivity.
Qed.
