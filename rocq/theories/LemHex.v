(** decode --hex *)
From Verif Require Import Base SpecBytes ModelWord ModelFloat ModelTrans SpecVM ModelVM ModelImage ModelJson LemJson ModelHex SpecHex.

Definition quiet (rq : request) : Prop := is_array_op (rq_op rq) = false.
Ltac aq := repeat (cbv beta zeta; match goal with
  | |- asks _ (Cont _) => exact I
  | |- asks _ (Undef _) => exact I
  | |- asks _ (Halt _ _) => exact I
  | |- asks _ (lift _ _) => apply asks_lift; intros ? ?
  | |- asks _ (call _ _ _ _ _ _) => apply asks_call; [unfold quiet; cbn [rq_op]; try reflexivity; try assumption|intros ?]
  | |- asks _ (Ask _ _) => split; [unfold quiet; cbn [rq_op]; try reflexivity; try assumption|intros ?]
  | |- asks _ (if ?x then _ else _) => destruct x eqn:?
  | |- asks _ (match ?x with _ => _ end) => destruct x eqn:?
  end).
Lemma eng_op_quiet op t : is_array_op op = false -> is_array_op (eng_op op t) = false.
Proof. intros. destruct t; cbn [eng_op]; try reflexivity; assumption. Qed.
Lemma f_eng_op_quiet op t : is_array_op op = false -> is_array_op (f_eng_op op t) = false.
Proof. intros. destruct t; cbn [f_eng_op]; try reflexivity; assumption. Qed.
Lemma int_type_quiet ty x : int_type ty = Some x -> is_array_op ty = false.
Proof. destruct ty as [|p]; [discriminate|]. do 6 (destruct p as [p|p|]; try discriminate; try reflexivity). Qed.
Lemma exec_quiet lm bc op s : is_array_op op = false -> asks quiet (exec_op lm bc op s).
Proof.
  intros NE. unfold exec_op. destruct (classify op) eqn:C.
  all: try (unfold dup_op, emit, const_write, const_check, enum_check, read_back, range_check, crc_op, scale_lin, trans_poly, trans_spline,
      trans_int, io_int, io_float, io_scalar, io_bool, io_bit_u, io_bit_i, io_bit_bool, align_pad, align_fill, put_bits, get_bits,
      str_null, str_pre, arr_eof, arr_end, 
      switch_op, switch_table, jump_if_not, jump_op, jump_to, bin_op, un_op, load_ctx, store_ctx, push, pop; aq; auto using eng_op_quiet, f_eng_op_quiet; eauto using int_type_quiet; fail).
  all: exfalso; revert C NE; clear; destruct op as [|p]; try discriminate; do 8 (destruct p as [p|p|]; try discriminate).
Qed.

Section Static.
  Variables (bc : list N) (i : N).
  Hypothesis NP : passes bc (N.to_nat i) = false.

  Definition unseen (rq : request) : Prop := is_array_op (rq_op rq) = true -> hex_array bc i (rq_op rq) = false.
  Lemma quiet_unseen a : asks quiet a -> asks unseen a.
  Proof.
    induction a as [s|e s|u|rq k IH]; cbn; auto. intros (A & B). split; [|auto]. unfold unseen, quiet in *. rewrite A. discriminate.
  Qed.
  Lemma enter_quiet s count : (lenN bc <= ip s + 3 \/ one_byte bc (N.to_nat (ip s)) = false) -> asks quiet (enter_array bc s count).
  Proof.
    intros OB. unfold enter_array. destruct (0 <? count); [|exact I]. unfold try_bulk. destruct (count =? 0).
    { unfold loop_push. aq. }
    destruct (lenN bc <=? ip s + 3) eqn:L; [unfold loop_push; aq|]. destruct OB as [OB|OB]; [lia|]. unfold mem.
    apply asks_lift. intros a A. apply asks_lift. intros b B.
    assert (X : ((a =? 16) || (a =? 20)) && (b =? 56) = false).
    { revert OB. unfold one_byte, code_at. replace (N.to_nat (ip s) + 3)%nat with (N.to_nat (ip s + 3)) by lia.
      destruct (ip s <? lenN bc); [|discriminate A]. destruct (ip s + 3 <? lenN bc); [|discriminate B].
      destruct (nth_error bc (N.to_nat (ip s))) eqn:E1; [|discriminate A]. injection A as ->.
      destruct (nth_error bc (N.to_nat (ip s + 3))) eqn:E2; [|discriminate B]. injection B as ->.
      rewrite (nth_error_nth _ _ 0 E1), (nth_error_nth _ _ 0 E2). auto. }
    rewrite X. unfold loop_push. aq.
  Qed.

  Lemma fetch_at w p v q : fetch w bc p = Ok (v, q) -> q = p + wbytes w \/ (q = p /\ lenN bc < p + wbytes w).
  Proof.
    unfold fetch. destruct (_ <=? _) eqn:L; cbv zeta; intros E.
    - destruct (slice _ _ _ _); [|discriminate E]. injection E as _ <-. auto.
    - injection E as _ <-. right. split; [reflexivity|lia].
  Qed.
  Lemma asks_unseen_call s key op p h k : hex_array bc i op = false -> (forall r, asks quiet (k r)) -> asks unseen (call s key op p h k).
  Proof. intros A B. apply asks_call; [intros _; exact A|]. intros r. apply quiet_unseen, B. Qed.

  Hypothesis IN : i < lenN bc.
  Lemma nth_far q : lenN bc <= q -> nth (N.to_nat q) bc 0 = 0.
  Proof. intros. apply nth_overflow. unfold lenN in *. lia. Qed.
  Lemma hex_unseen op a c : (op =? 0x39) = false -> announced_ip op i = i + a -> (if op =? 0x34 then i + a + 6 else i + a + 2) = i + c ->
    (code_at bc (N.to_nat i + N.to_nat c) =? 0x10) = false -> hex_array bc i op = false.
  Proof.
    intros X1 X2 X3 X4. unfold hex_array. rewrite X1, X2, X3. unfold code_at in X4. replace (N.to_nat i + N.to_nat c)%nat with (N.to_nat (i + c)) in X4 by lia. rewrite X4, andb_false_r. now destruct (_ <? _).
  Qed.
  Lemma exec_unseen lm s : ip s = i + 1 -> asks unseen (exec_op lm bc (code_at bc (N.to_nat i)) s).
  Proof.
    intros IP. pose proof NP as P. unfold passes in P. revert P. generalize (code_at bc (N.to_nat i)). intros op.
    destruct (is_array_op op) eqn:AO; [|intros _; apply quiet_unseen, exec_quiet; exact AO]. unfold is_array_op in AO.
    destruct (N.eqb_spec op 0x39) as [E|N39]; [discriminate|].
    destruct (N.eqb_spec op 0x34) as [E|N34].
    { rewrite E. intros Q. apply orb_false_iff in Q as (Q1 & Q2). change (exec_op lm bc 0x34 s) with (arr_fixed bc s). unfold arr_fixed.
      apply asks_lift. intros (key, p) F1. apply asks_lift. intros (cnt, q) F2. cbv zeta.
      apply asks_unseen_call; [apply (hex_unseen 0x34 7 13); auto; cbn; lia|]. intros r. apply enter_quiet. change (ip (set_ip s q)) with q.
      apply fetch_at in F1. apply fetch_at in F2. change (wbytes W2) with 2 in *. change (wbytes W4) with 4 in *.
      destruct F1 as [F1|F1], F2 as [F2|F2]; try (left; lia). right. subst. rewrite IP. now replace (N.to_nat (i + 1 + 2 + 4)) with (N.to_nat i + 7)%nat by lia. }
    destruct (N.eqb_spec op 0x3B) as [E|N3B].
    { rewrite E. intros Q. apply orb_false_iff in Q as (Q1 & Q2). change (exec_op lm bc 0x3B s) with (arr_dynamic bc s). unfold arr_dynamic.
      apply asks_lift. intros (key, p) F1. apply asks_lift. intros (cnt, q) F2. cbv zeta.
      apply asks_call; [intros X; discriminate X|]. intros r0. destruct (_ <? _); [exact I|].
      apply asks_unseen_call; [apply (hex_unseen 0x3B 5 7); auto; cbn; lia|]. intros r. apply enter_quiet. change (ip (set_ip s q)) with q.
      apply fetch_at in F1. apply fetch_at in F2. change (wbytes W2) with 2 in *.
      destruct F1 as [F1|F1], F2 as [F2|F2]; try (left; lia). right. subst. rewrite IP. now replace (N.to_nat (i + 1 + 2 + 2)) with (N.to_nat i + 5)%nat by lia. }
    assert (PRE : exists w, exec_op lm bc op s = arr_pre bc s op w /\ announced_ip op i = i + 3 /\ (op =? 0x39) = false /\ (op =? 0x34) = false).
    { destruct (N.eqb_spec op 0x35) as [E|]; [rewrite E; now exists W1|]. destruct (N.eqb_spec op 0x36) as [E|]; [rewrite E; now exists W2|]. destruct (N.eqb_spec op 0x37) as [E|]; [rewrite E; now exists W4|].
      cbn in AO. discriminate. }
    destruct PRE as (w & -> & AN & E39 & E34). destruct ((op =? 53) || (op =? 54) || (op =? 55)) eqn:D; [|destruct (op =? 53), (op =? 54), (op =? 55); discriminate].
    intros Q. apply orb_false_iff in Q as (Q1 & Q2). assert (HX : hex_array bc i op = false) by (apply (hex_unseen op 3 5); auto; rewrite E34; lia).
    assert (ER : forall q, (q = i + 3 \/ (q = i + 1 /\ lenN bc < i + 3)) -> forall s cnt, ip s = q -> asks quiet (enter_array bc s cnt)).
    { intros q [F|F] s0 cnt I0; apply enter_quiet; rewrite I0; [|left; lia]. right. subst q. now replace (N.to_nat (i + 3)) with (N.to_nat i + 3)%nat by lia. }
    unfold arr_pre. apply asks_lift. intros (key, p) F1. apply fetch_at in F1. change (wbytes W2) with 2 in F1. rewrite IP in F1.
    assert (F : p = i + 3 \/ (p = i + 1 /\ lenN bc < i + 3)) by lia. cbv zeta. destruct (md _).
    - apply asks_unseen_call; [exact HX|]. intros r. destruct (_ <? _); [exact I|]. apply asks_lift. intros b _. now apply (ER p F).
    - destruct (_ <? _); [exact I|]. apply asks_lift. intros n _. apply asks_unseen_call; [exact HX|]. intros r. now apply (ER p F).
  Qed.
End Static.

Lemma step_unseen lm bc s : no_byte_arrays bc = true -> asks (unseen bc (ip s)) (step lm bc s).
Proof.
  intros NB. unfold step. apply asks_lift. intros op M. unfold mem in M. destruct (ip s <? lenN bc) eqn:L; [|discriminate M].
  destruct (nth_error bc (N.to_nat (ip s))) eqn:E; [|discriminate M]. injection M as ->. pose proof (nth_error_nth _ _ 0 E) as E0.
  change (nth (N.to_nat (ip s)) bc 0) with (code_at bc (N.to_nat (ip s))) in E0. rewrite <- E0. apply exec_unseen.
  - unfold no_byte_arrays in NB. rewrite forallb_forall in NB. specialize (NB (N.to_nat (ip s))). apply negb_true_iff, NB, in_seq. unfold lenN in L. lia.
  - lia.
  - unfold align. destruct (aligns (code_at bc (N.to_nat (ip s))) && _); reflexivity.
Qed.

(** ** The run is the same *)
Definition no_hex (io : ioctx) : hexctx := {| x_io := io; x_in := false; x_text := None; x_strings := [] |}.
Lemma same_interp bc names s a : forall io, asks (unseen bc (ip s)) a ->
  interp_at (hex_call bc names) s a (no_hex io) = (let r := interp_at (json_host names) s a io in (fst r, no_hex (snd r))).
Proof.
  induction a as [s0|e s0|u|rq k IH]; intros io A; cbn [interp_at]; auto. destruct A as (A & B).
  assert (HC : hex_call bc names s (no_hex io) rq = let! r := json_host names s io rq in Ok (no_hex (fst r), snd r)).
  { unfold hex_call. cbn [no_hex x_io x_in]. unfold unseen in A. destruct (md s); [now destruct (json_host names s io rq)|].
    destruct (is_array_op (rq_op rq)) eqn:AO; [rewrite A by reflexivity; rewrite andb_false_r; now destruct (json_host names s io rq)|].
    destruct (rq_op rq =? 0x38); cbn [andb]; now destruct (json_host names s io rq). }
  rewrite HC. destruct (json_host names s io rq) as [(io1, r)|u]; cbn; [|reflexivity]. apply IH, B.
Qed.
Lemma same_run bc names lm (NB : no_byte_arrays bc = true) : forall fuel s io,
  run_at (hex_call bc names) lm bc fuel s (no_hex io) = (let r := run_at (json_host names) lm bc fuel s io in (fst r, no_hex (snd r))).
Proof.
  induction fuel as [|f IH]; intros s io; [reflexivity|]. cbn [run_at]. destruct (lenN bc <=? ip s); [reflexivity|].
  rewrite (same_interp bc names s _ io (step_unseen lm bc s NB)). destruct (interp_at (json_host names) s (step lm bc s) io) as ([s'|e s'|u], h); cbn; auto.
Qed.
Lemma same_decode lm fuel img bytes : (forall off len ps bc, cli_load_il img = Ok (Some (off, len, ps)) -> slice UIl img off len = Ok bc -> no_byte_arrays bc = true) ->
  cli_decode_hex lm fuel img bytes = cli_decode lm fuel img bytes.
Proof.
  intros H. unfold cli_decode_hex, cli_decode, with_il. destruct (cli_load_il img) as [[((off, len), ps)|]|u] eqn:L; auto.
  destruct (slice UIl img off len) as [bc|u] eqn:S1; auto. destruct (name_strings img ps) as [names|u]; auto.
  specialize (H off len ps bc eq_refl S1). change start_hex with (no_hex (start_io (JObj []))). rewrite (same_run bc names lm H).
  destruct (run_at (json_host names) lm bc fuel (init Dec bytes) (start_io (JObj []))) as ([[] s|u|], io); reflexivity.
Qed.

(** ** Bytes that are collected *)
Lemma hex_byte_shown b r : b < 256 -> bytes_shown (hex_byte b ++ r) = match bytes_shown r with Some t => Some (b :: t) | None => None end.
Proof.
  intros B. cbn [hex_byte app bytes_shown]. assert (D : forall n, n < 16 -> digit_of (hex_digit n) = Some n).
  { intros n L. unfold hex_digit. destruct (N.ltb_spec n 10); unfold digit_of.
    - replace ((48 <=? 48 + n) && (48 + n <=? 57)) with true by lia. f_equal. lia.
    - replace ((48 <=? 55 + n) && (55 + n <=? 57)) with false by lia. replace ((65 <=? 55 + n) && (55 + n <=? 70)) with true by lia. f_equal. lia. }
  rewrite !D by lia. destruct (bytes_shown r); [|reflexivity]. do 2 f_equal. lia.
Qed.
Lemma all_shown l : wf_bytes l -> bytes_shown (concat (map hex_byte l)) = Some l.
Proof.
  induction l as [|b l IH]; intros W; [reflexivity|]. cbn [map concat]. rewrite hex_byte_shown by (now inversion W). rewrite IH by (now inversion W). reflexivity.
Qed.

(** The callback on a list of calls *)
Fixpoint feed (bc : list N) (names : list (list N)) (x : hexctx) (l : list (st * request)) : result hexctx :=
  match l with
  | [] => Ok x
  | (s, rq) :: r => let! y := hex_call bc names s x rq in feed bc names (fst y) r
  end.
Definition byte_call (c : st * request) (v : N) : Prop := md (fst c) = Dec /\ rq_op (snd c) = 0x10 /\ int_of (rq_pl (snd c)) = v.
Lemma feed_app bc names l1 : forall x l2, feed bc names x (l1 ++ l2) = let! y := feed bc names x l1 in feed bc names y l2.
Proof. induction l1 as [|(s, rq) l1 IH]; intros x l2; cbn; auto. destruct (hex_call bc names s x rq); cbn; auto. Qed.
Lemma feed_bytes bc names cs vs : Forall2 byte_call cs vs -> forall x, x_in x = true -> feed bc names x cs =
  Ok {| x_io := x_io x; x_in := true; x_text := match vs with [] => x_text x | _ => Some (match x_text x with Some t => t | None => [] end ++ concat (map hex_byte vs)) end; x_strings := x_strings x |}.
Proof.
  induction 1 as [|(s, rq) v cs vs (M & O1 & V) F IH]; intros x X; cbn [feed]; [now destruct x; cbn in *; subst|]. cbn [fst snd] in *.
  unfold hex_call. rewrite M, O1, X. cbn [is_array_op N.eqb Pos.eqb orb andb bindR fst]. change (is_array_op 16) with false. cbn iota. rewrite V. cbn [bindR fst].
  rewrite IH by (cbn; exact X). cbn [append_hex x_io x_text x_strings map concat]. do 2 f_equal. destruct vs as [|w vs]; cbn [map concat]; [now rewrite app_nil_r|].
  now rewrite !app_assoc.
Qed.

Lemma change_app_last {A} (l : list A) x f : change (length l) f (l ++ [x]) = l ++ [f x].
Proof. induction l as [|y l IH]; cbn; [reflexivity|]. now rewrite IH. Qed.
Lemma change_app_front {A} (l m : list A) f : forall i, (i < length l)%nat -> change i f (l ++ m) = change i f l ++ m.
Proof. induction l as [|y l IH]; intros [|i] L; cbn in *; try lia; auto. now rewrite IH by lia. Qed.
Lemma change_length {A} (l : list A) f : forall i, length (change i f l) = length l.
Proof. induction l as [|y l IH]; intros [|i]; cbn; auto. Qed.
Definition before (n : nat) (e : path * list N) : Prop := exists i q, fst e = i :: q /\ (i < n)%nat.
Lemma shown_front S : forall l m, Forall (before (length l)) S -> exists l', shown_doc (JObj (l ++ m)) S = JObj (l' ++ m) /\ shown_doc (JObj l) S = JObj l' /\ length l' = length l.
Proof.
  unfold shown_doc. induction S as [|(p, t) S IH]; intros l m F; cbn [fold_left]; [eauto|].
  inversion F as [|e1 e2 (i & q & E & L) F2 e3]; subst. cbn [fst] in E. subst p. cbn [put_at fst snd]. rewrite change_app_front by exact L.
  set (l1 := change i _ l). assert (L1 : length l1 = length l) by apply change_length.
  destruct (IH l1 m) as (l' & A & B & C); [now rewrite L1|]. exists l'. rewrite A, B. repeat split. lia.
Qed.
Lemma set_string_same p t S : Forall (fun e => fst e <> p) S -> set_string p t S = S.
Proof.
  induction 1 as [|(q, u) S NE F IH]; [reflexivity|]. cbn [set_string map]. unfold set_string in IH. rewrite IH. cbn [fst] in *. unfold same_path.
  destruct (list_eq_dec Nat.eq_dec q p); [contradiction|reflexivity].
Qed.

Definition at_top (l : list (list N * json)) : ioctx := {| io_root := JObj l; io_stack := [[]]; io_arrays := [] |}.
Lemma collected bc names x l o cs vs e : x_io x = at_top l -> Forall (before (length l)) (x_strings x) ->
  md (fst o) = Dec -> is_array_op (rq_op (snd o)) = true -> hex_array bc (ip (fst o)) (rq_op (snd o)) = true ->
  Forall2 byte_call cs vs -> md (fst e) = Dec -> rq_op (snd e) = 0x38 ->
  exists y l', feed bc names x (o :: cs ++ [e]) = Ok y /\ x_io y = at_top (l ++ [(key_name names (rq_key (snd o)), JArr [])]) /\ x_in y = false /\
    hex_doc x = JObj l' /\ hex_doc y = JObj (l' ++ [(key_name names (rq_key (snd o)), JStr (concat (map hex_byte vs)))]) /\
    Forall (before (Datatypes.S (length l))) (x_strings y).
Proof.
  intros X S0 M A HX F ME E. destruct o as (s, rq), e as (s1, rq1). cbn [fst snd] in *. set (key := key_name names (rq_key rq)).
  cbn [feed]. unfold hex_call at 1. rewrite M, A, HX, X. cbn [at_top io_arrays andb].
  assert (JH : json_host names s (at_top l) rq = Ok ({| io_root := JObj (l ++ [(key, JArr [])]); io_stack := [[]]; io_arrays := [([length l], 0, 0)] |}, accept)).
  { unfold json_host, json_call. rewrite M, A. assert (O3 : (rq_op rq =? 3) = false /\ (rq_op rq =? 4) = false).
    { unfold is_array_op in A. destruct (N.eqb_spec (rq_op rq) 3) as [Q|]; [rewrite Q in A; discriminate|]. destruct (N.eqb_spec (rq_op rq) 4) as [Q|]; [rewrite Q in A; discriminate|]. auto. }
    destruct O3 as (-> & ->). unfold array_start. fold key. cbn. unfold last_child. cbn. rewrite map_length, app_length. cbn. do 5 f_equal. replace (length l + 1)%nat with (Datatypes.S (length l)) by lia. reflexivity. }
  change (lenN (io_arrays (at_top l)) <? 31) with true. cbn [andb]. rewrite JH. change ((lenN (@nil (path * N * N)) <? 31) && true) with true. cbn [bindR fst snd io_arrays]. cbn iota. cbn [bindR fst]. 
  rewrite feed_app, (feed_bytes bc names cs vs F) by reflexivity.
  cbn [bindR x_io x_text x_strings]. cbn [feed]. unfold hex_call. rewrite ME, E. cbn [x_in x_io io_arrays]. change (is_array_op 56) with false. change (56 =? 56) with true. cbn iota.
  assert (JE : forall io, json_host names s1 io rq1 = Ok (with_arrays io (tl (io_arrays io)), accept)).
  { intros io. unfold json_host, json_call. rewrite E. reflexivity. }
  rewrite JE. cbn [bindR fst snd feed].
  destruct (shown_front (x_strings x) l [(key, JStr (concat (map hex_byte vs)))] S0) as (l' & D1 & D2 & D3).
  assert (NE : Forall (fun e => fst e <> [length l]) (x_strings x)).
  { eapply Forall_impl; [|exact S0]. intros a (i & q & Q & L) Q1. pose proof (eq_trans (eq_sym Q) Q1) as Q2. injection Q2 as Q2 _. lia. }
  assert (ST : (match match vs with [] => None | _ :: _ => Some ([] ++ concat (map hex_byte vs)) end with
     | Some t => set_string [length l] t (([length l], []) :: x_strings x) | None => ([length l], []) :: x_strings x end) = ([length l], concat (map hex_byte vs)) :: x_strings x).
  { destruct vs as [|v vs]; [reflexivity|]. cbn [set_string map fst]. unfold same_path at 1. destruct (list_eq_dec Nat.eq_dec [length l] [length l]); [|contradiction].
    f_equal. apply set_string_same, NE. }
  cbn [x_text x_strings]. rewrite ST.
  eexists. exists l'. split; [reflexivity|]. cbn [x_io x_in x_strings]. split; [reflexivity|]. split; [reflexivity|].
  split; [unfold hex_doc; rewrite X; exact D2|]. split.
  - unfold hex_doc. cbn [x_io io_root x_strings with_arrays]. unfold shown_doc. cbn [fold_left fst snd put_at]. rewrite change_app_last. cbn [fst snd]. exact D1.
  - constructor; [exists (length l), []; split; [reflexivity|lia]|]. eapply Forall_impl; [|exact S0]. intros a (i & q & Q & L). exists i, q. split; [exact Q|lia].
Qed.
