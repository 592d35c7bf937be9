(** The Go package: the callback written with it is the callback meant *)
From Verif Require Import Base SpecBytes LemBase LemStr ModelWord LemWord ModelFloat ModelTrans SpecVM ModelVM LemAct LemSafe LemRun ModelImage LemImage SpecImage ModelJson LemJson SpecHost LemHost LemTold ModelGo SpecGo.
Ltac Zify.zify_post_hook ::= Z.div_mod_to_equations.

Lemma c_string_at l : forall r, Forall (fun c => c <> 0) l -> c_string (l ++ 0 :: r) = Ok l.
Proof. induction l as [|c l IH]; intros r F; cbn; [reflexivity|]. inversion_clear F as [|? ? NZ F']. destruct (N.eqb_spec c 0); [contradiction|]. now rewrite IH. Qed.
Lemma split_at b p n : p + n < lenN b -> skipn (N.to_nat p) b = sub b p n ++ nthN b (p + n) :: skipn (N.to_nat (p + n + 1)) b.
Proof.
  intros L. unfold lenN in L. rewrite <- (firstn_skipn (N.to_nat n) (skipn (N.to_nat p) b)) at 1. unfold sub. f_equal.
  assert (E : forall k (l : list N), (k < length l)%nat -> skipn k l = nth k l 0 :: skipn (Datatypes.S k) l).
  { clear. induction k as [|k IH]; intros [|x l] L; cbn in L; try lia; [reflexivity|]. cbn [skipn nth]. rewrite IH by lia. reflexivity. }
  assert (E2 : forall a c (l : list N), skipn a (skipn c l) = skipn (c + a) l).
  { clear. intros a c. induction c as [|c IH]; intros l; [reflexivity|]. destruct l; [now rewrite !skipn_nil|]. cbn [skipn Nat.add]. apply IH. }
  rewrite E2, E by lia. unfold nthN. replace (N.to_nat p + N.to_nat n)%nat with (N.to_nat (p + n)) by lia.
  replace (N.to_nat (p + n + 1)) with (Datatypes.S (N.to_nat (p + n))) by lia. reflexivity.
Qed.
Lemma order_val e l : wf_bytes l -> (match e with LE => il_comb l 0 | BE => il_comb (rev l) 0 end) = val_of e l.
Proof. intros W. destruct e; cbn [val_of]; rewrite il_comb_val, N.pow_0_r, N.mul_1_r; auto. now apply Forall_rev. Qed.
Lemma counted_told b p l n len op e : wf_bytes b -> lenN b < 2 ^ 31 -> p + lenN l <= lenN b -> sub b p (lenN l) = l -> n <= p -> len (sub b (p - n) n) = lenN l ->
  counted n len {| v_pl := PBuf p l; v_op := op; v_en := e; v_mem := b |} = Ok (Some l).
Proof.
  intros W L LL S NP V. unfold counted. cbn [v_pl v_mem]. destruct (N.ltb_spec p n); [lia|]. rewrite slice_eq. replace (p - n + n <=? lenN b) with true by lia. cbn [bindR].
  rewrite V. unfold trunc. change (8 * 4) with 32. rewrite N.mod_small by lia. unfold toS. replace (lenN l <? 2 ^ (8 * 4 - 1)) with true by (change (2 ^ (8 * 4 - 1)) with (2 ^ 31); lia).
  replace (Z.of_N (lenN l) <? 0)%Z with false by lia. rewrite slice_eq. replace (p + lenN l <=? lenN b) with true by lia. cbn [bindR]. now rewrite S.
Qed.
Lemma string_told b e rq p l : wf_bytes b -> lenN b < 2 ^ 31 -> text_told b e rq -> closed rq -> rq_pl rq = PBuf p l -> rq_op rq <> 0x39 ->
  v_string {| v_pl := PBuf p l; v_op := rq_op rq; v_en := e; v_mem := b |} = Ok (Some l).
Proof.
  intros W L T C P NR. destruct (T _ _ P NR) as (S & LL & [(n & PS & NP & V)|(OP & max & HW & NZ & LT & Z)]).
  - assert (D : rq_op rq = 0x31 /\ n = 1 \/ rq_op rq = 0x32 /\ n = 2 \/ rq_op rq = 0x33 /\ n = 4).
    { revert PS. clear. generalize (rq_op rq) as op. intros op. unfold prefix_size. destruct op as [|q]; [discriminate|].
      do 6 (destruct q as [q|q|]; try discriminate; try (intros [= <-]; auto)). }
    assert (WS : wf_bytes (sub b (p - n) n)) by now apply wf_sub.
    unfold v_string. cbn [v_op v_en]. destruct D as [(-> & ->)|[(-> & ->)|(-> & ->)]]; apply counted_told; auto.
    + rewrite <- V. rewrite <- (order_val e) by exact WS. destruct e; auto. assert (L1 : lenN (sub b (p - 1) 1) = 1) by (apply lenN_sub; lia).
      destruct (sub b (p - 1) 1) as [|x [|y r]]; [reflexivity|reflexivity|]. rewrite !lenN_cons in L1. lia.
    + now rewrite (order_val e).
    + now rewrite (order_val e).
  - unfold v_string. rewrite OP. cbn [v_op v_pl v_mem]. unfold closed in C. rewrite HW, P in C. rewrite (split_at b p (lenN l)) by lia. rewrite S, (Z C). now rewrite c_string_at.
Qed.

Section Sim.
  Context {H : Type} (u : H -> mode -> N -> N -> seen -> H * answer) (lm : libm) (bc : list N).

  Lemma call_same s h rq : wf_bytes (buf s) -> lenN (buf s) < 2 ^ 31 -> typed (md s) rq -> text_told (buf s) (en s) rq -> (md s = Dec -> closed rq) ->
    gateway (go_callback u) s h rq = Ok (plain_host u (md s) h rq).
  Proof.
    intros W L TY TT CL. unfold gateway, go_callback, plain_host, seen_in. unfold typed in TY. destruct (rq_pl rq) as [|w v| |p l] eqn:P.
    - assert (N0 : number_size (rq_op rq) = None /\ text_type (rq_op rq) = false /\ rq_op rq =? 0x39 = false).
      { unfold bare_type in TY. assert (D : rq_op rq = 3 \/ rq_op rq = 4 \/ rq_op rq = 0x38) by lia. destruct D as [-> |[-> | ->]]; auto. }
      destruct N0 as (-> & -> & ->). destruct (u h (md s) (rq_key rq) (rq_op rq) Bare) as (h1, []); reflexivity.
    - rewrite TY. unfold v_load. cbn [v_pl]. rewrite N.leb_refl. cbn [bindR]. destruct (u _ _ _ _ _) as (h1, []); try reflexivity.
      unfold v_store. cbn [v_pl]. rewrite N.leb_refl. cbn [bindR]. rewrite (N.div_small (v mod _)) by (apply N.mod_lt; apply N.pow_nonzero; lia). now rewrite N.mul_0_l, N.add_0_r.
    - destruct TY as (-> & TX). assert (N0 : number_size (rq_op rq) = None).
      { unfold text_type in TX. assert (D : rq_op rq = 0x30 \/ rq_op rq = 0x31 \/ rq_op rq = 0x32 \/ rq_op rq = 0x33) by lia. destruct D as [-> |[-> |[-> | ->]]]; auto. }
      rewrite N0, TX. destruct (u _ _ _ _ _) as (h1, []); reflexivity.
    - destruct (N.eqb_spec (rq_op rq) 0x39) as [E|NE].
      + rewrite E. change (number_size 0x39) with (@None N). change (text_type 0x39) with false. change (0x39 =? 0x39) with true. cbv iota. destruct (u _ _ _ _ _) as (h1, []); reflexivity.
      + destruct TY as [(MD & TX)|]; [|contradiction]. assert (N0 : number_size (rq_op rq) = None).
        { unfold text_type in TX. assert (D : rq_op rq = 0x30 \/ rq_op rq = 0x31 \/ rq_op rq = 0x32 \/ rq_op rq = 0x33) by lia. destruct D as [-> |[-> |[-> | ->]]]; auto. }
        rewrite N0, TX, MD. rewrite (string_told (buf s) (en s) rq p l) by auto. cbn [bindR]. destruct (u _ _ _ _ _) as (h1, []); reflexivity.
  Qed.
  Lemma interp_same s a : wf_bytes (buf s) -> lenN (buf s) < 2 ^ 31 -> forall h x h' t, asks (typed (md s)) a -> asks (text_told (buf s) (en s)) a ->
    interp (plain_host u (md s)) a h = (x, h', t) -> (md s = Dec -> Forall (fun ev => closed (fst ev)) t) -> interp_at (gateway (go_callback u)) s a h = (x, h').
  Proof.
    intros W L. induction a as [s0|e s0|k|rq k IH]; intros h x h' t A B E C; cbn [interp interp_at] in *; try (injection E as <- <- _; reflexivity).
    destruct A as (A & A2), B as (B & B2). destruct (plain_host u (md s) h rq) as (h1, r) eqn:PH. destruct (interp (plain_host u (md s)) (k r) h1) as ((y, h2), t2) eqn:E2.
    injection E as <- <- <-. rewrite call_same by (auto; intros M; specialize (C M); now inversion C). rewrite PH. eapply IH; eauto. intros M. specialize (C M). now inversion C.
  Qed.
  Hypothesis (WB : wf_bytes bc) (BL : lenN bc < 2 ^ 62).
  Lemma run_same fuel : forall s h o h' t, Inv False s -> dlen s < 2 ^ 31 -> run (plain_host u (md s)) lm bc fuel s h = (o, h', t) ->
    (md s = Dec -> Forall (fun ev => closed (fst ev)) t) ->
    run_at (gateway (go_callback u)) lm bc fuel s h = (o, h') /\ match o with Done _ s' => dlen s' = dlen s | _ => True end.
  Proof.
    induction fuel as [|f IH]; intros s h o h' t I L R C; cbn [run run_at] in *; [injection R as <- <- _; auto|].
    destruct (N.leb_spec (lenN bc) (ip s)) as [LE1|LT]; [injection R as <- <- _; auto|].
    pose proof (step_rel (plain_host u (md s)) lm bc False False False ltac:(contradiction) ltac:(contradiction) BL WB s h I LT ltac:(contradiction)) as SR.
    destruct (interp (plain_host u (md s)) (step lm bc s) h) as ((x, h1), t1) eqn:E. destruct SR as (SR & _).
    assert (C1 : md s = Dec -> Forall (fun ev => closed (fst ev)) t1).
    { intros M. specialize (C M). destruct x as [s'|e s'|k]; try (injection R as _ _ <-; exact C).
      destruct (run _ lm bc f s' h1) as ((o2, h2), t2). injection R as _ _ <-. now apply Forall_app in C. }
    rewrite (interp_same s _ (i_wf _ _ I) L h x h1 t1 (step_typed lm bc s) (step_text lm bc s (i_wf _ _ I)) E C1).
    destruct x as [s'|e s'|k].
    - destruct (run (plain_host u (md s)) lm bc f s' h1) as ((o2, h2), t2) eqn:R2. injection R as <- <- <-.
      pose proof (e_md _ _ _ _ _ _ SR) as EM. pose proof (e_len _ _ _ _ _ _ SR) as EL. rewrite <- EM in R2.
      rewrite <- EL. eapply IH; [apply (e_inv _ _ _ _ _ _ SR)|rewrite EL; exact L|exact R2|]. rewrite EM. intros M. specialize (C M). now apply Forall_app in C.
    - injection R as <- <- _. split; [reflexivity|]. exact (e_len _ _ _ _ _ _ SR).
    - injection R as <- <- _. auto.
  Qed.
End Sim.

Lemma execute_same {H} (u : H -> mode -> N -> N -> seen -> H * answer) lm fuel p data m h o h' t : wf_bytes (go_bytecode p) -> lenN (go_bytecode p) < 2 ^ 62 ->
  wf_bytes data -> 0 < lenN data < 2 ^ 31 -> run (plain_host u m) lm (go_bytecode p) fuel (init m data) h = (o, h', t) ->
  (m = Dec -> Forall (fun ev => closed (fst ev)) t) -> go_execute (go_callback u) lm fuel (Some p) data m h = go_result o h'.
Proof.
  intros WB BL WD (L1 & L2) R C. destruct (run_same u lm _ WB BL fuel (init m data) h o h' t (init_Inv False m data WD) L2 R C) as (R' & D).
  unfold go_execute. destruct data as [|d0 data]; [discriminate L1|]. rewrite R'. destruct o as [e s|k|]; try reflexivity. cbn [go_result].
  set (dd := d0 :: data) in *. unfold trunc. rewrite N.mod_small by (change (2 ^ (8 * 4)) with (2 ^ 32); lia). unfold toS. replace (lenN dd <? 2 ^ (8 * 4 - 1)) with true by (change (2 ^ (8 * 4 - 1)) with (2 ^ 31); lia).
  replace (Z.of_N (lenN dd) <? 0)%Z with false by lia. change (dlen (init m dd)) with (lenN dd) in D. unfold dlen, lenN in D.
  rewrite firstn_all2 by (unfold lenN; lia). rewrite skipn_all2 by (unfold lenN; lia). now rewrite app_nil_r.
Qed.

(** ** Loading *)
Lemma string_c img p s : string_at img p s -> text s -> c_string (skipn (N.to_nat p) img) = Ok s.
Proof.
  intros (L & E) T. rewrite (split_at img p (lenN s)) by lia.
  assert (A : sub img p (lenN s) = s /\ nthN img (p + lenN s) = 0).
  { unfold sub in E. rewrite (split_at img p (lenN s)) in E by lia. pose proof (lenN_sub img p (lenN s) ltac:(lia)) as LS. set (x := sub img p (lenN s)) in *.
    assert (X : N.to_nat (lenN s + 1) = (length x + 1)%nat) by (unfold lenN in *; lia). rewrite X, firstn_app_2 in E. cbn [firstn] in E. apply app_inj_tail in E. exact E. }
  destruct A as (-> & ->). apply c_string_at. eapply Forall_impl; [|exact T]. cbn. lia.
Qed.
Lemma loads strs bc : Forall text strs -> lenN strs <= 65535 -> 16 + table_bytes strs < 2 ^ 32 ->
  exists p, go_load (image strs bc) = Ok (GoLoaded p) /\ go_bytecode p = bc /\
    (forall i, i < lenN strs -> go_key_name (Some p) i = Ok (nth (N.to_nat i) strs [])) /\
    (forall i, lenN strs <= i -> go_key_name (Some p) i = Ok []) /\
    (forall name, text name -> go_key_id (Some p) name = Ok (match index_of name strs with Some i => i | None => 0xFFFF end)).
Proof.
  intros T C B. exists {| g_mem := image strs bc; g_prog := prog strs bc; g_names := true |}. split; [|split; [|split; [|split]]].
  - pose proof (image_len strs bc T C B) as IL. unfold go_load. destruct (image strs bc) as [|x r] eqn:E; [exfalso; change (lenN (@nil N)) with 0 in IL; lia|]. rewrite <- E in *. clear E x r.
    replace (16 <=? lenN (image strs bc)) with true by lia. assert (M : magic_ok (image strs bc) = Ok true).
    { unfold magic_ok. rewrite slice_header by (auto; lia). cbn [bindR]. change (sub (header strs) 0 5) with [67; 78; 68; 73; 76]. destruct list_eq_dec; congruence. }
    rewrite M. cbn [bindR]. now rewrite load_image.
  - apply (prog_code strs bc T C B).
  - intros i I. destruct (name_of strs bc T C B i I) as (p & E & S). unfold go_key_name. cbn [g_names g_mem g_prog]. rewrite E. cbn [bindR]. apply string_c; [exact S|].
    rewrite Forall_forall in T. apply T. apply nth_In. unfold lenN in I. lia.
  - intros i I. unfold go_key_name. cbn [g_names g_mem g_prog]. rewrite name_out by auto. reflexivity.
  - intros name TN. unfold go_key_id. cbn [g_names g_mem g_prog]. rewrite cstr_text by exact TN. now apply id_of.
Qed.
Lemma loads_raw data : data <> [] -> (lenN data < 16 \/ firstn 5 data <> [67; 78; 68; 73; 76]) ->
  exists p, go_load data = Ok (GoLoaded p) /\ go_bytecode p = data /\ (forall i, go_key_name (Some p) i = Ok []) /\ (forall name, go_key_id (Some p) name = Ok 0xFFFF).
Proof.
  intros NE D. exists {| g_mem := data; g_names := false; g_prog := {| pr_bytecode := 0; pr_bytecode_len := lenN data; pr_string_table := 0; pr_string_count := 0 |} |}.
  split; [|split; [|split; intros; reflexivity]].
  - unfold go_load. destruct data as [|x r] eqn:E; [congruence|]. rewrite <- E in *. clear E x r. assert (M : (if 16 <=? lenN data then magic_ok data else Ok false) = Ok false).
    { destruct (N.leb_spec 16 (lenN data)); [|reflexivity]. destruct D as [D|D]; [lia|]. unfold magic_ok. rewrite slice_eq. replace (0 + 5 <=? lenN data) with true by lia. cbn [bindR].
      change (sub data 0 5) with (firstn 5 data). destruct list_eq_dec; congruence. }
    rewrite M. reflexivity.
  - unfold go_bytecode. cbn [g_mem g_prog pr_bytecode pr_bytecode_len]. unfold lenN. rewrite Nat2N.id. cbn [N.to_nat skipn]. apply firstn_all.
Qed.

Lemma too_large {H} (cb : H -> mode -> N -> N -> value -> result (H * reply)) lm f p data m h : go_bytecode p = [] -> 2 ^ 31 <= lenN data < 2 ^ 32 ->
  go_execute cb lm (Datatypes.S f) (Some p) data m h = Panicked.
Proof.
  intros E (L1 & L2). unfold go_execute. destruct data as [|d0 data]; [exfalso; apply L1; reflexivity|]. rewrite E. cbn [run_at]. change (lenN (@nil N)) with 0. change (0 <=? ip (init m (d0 :: data))) with true. cbv iota.
  set (dd := d0 :: data) in *. unfold trunc. rewrite N.mod_small by (change (2 ^ (8 * 4)) with (2 ^ 32); lia). unfold toS. destruct (N.ltb_spec (lenN dd) (2 ^ (8 * 4 - 1))) as [X|X]; [change (2 ^ (8 * 4 - 1)) with (2 ^ 31) in X; lia|].
  change (2 ^ Z.of_N (8 * 4))%Z with (2 ^ 32)%Z. replace (Z.of_N (lenN dd) - 2 ^ 32 <? 0)%Z with true by lia. reflexivity.
Qed.
