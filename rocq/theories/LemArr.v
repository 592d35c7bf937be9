(** Array headers, loops, bulk transfer. *)
From Verif Require Import Base SpecBytes LemBase ModelWord LemWord ModelBits LemBits ModelFloat ModelTrans
  ModelVM SpecVM LemAct LemSafe LemRun LemSafety LemWire LemInstr LemField LemTrans LemCheck.
Ltac Zify.zify_post_hook ::= Z.div_mod_to_equations.

Lemma interp_pre {H} (p : stepped * H * list event) rqr :
  (let '(x, h2, t) := p in (x, h2, rqr :: t)) = (fst (fst p), snd (fst p), rqr :: snd p).
Proof. now destruct p as [[x h2] t]. Qed.

Section Arr.
  Context {H : Type} (host : H -> request -> H * reply) (lm : libm) (bc : list N).
  Hypothesis WB : wf_bytes bc.

  (** Every header ends in [enter_array] *)
  Lemma count_class op n : count_bytes op = Some n -> exists w, wbytes w = n /\ classify op = CArrPre w /\ aligns op = true.
  Proof.
    intros E. unfold count_bytes in E.
    repeat match type of E with match ?x with _ => _ end = Some _ => destruct x; try discriminate E;
      try (injection E as <-; eexists; split; [|split]; [|reflexivity|reflexivity]; reflexivity) end.
  Qed.
  Lemma header_enters s h c x h1 t : array_starts host bc s h c x h1 t -> boff s < 8 -> wf_bytes (buf s) ->
    forall y h2 t2, interp host (enter_array bc x c) h1 = (y, h2, t2) -> interp host (step lm bc s) h = (y, h2, t ++ t2).
  Proof.
    intros A B WF y h2 t2 E. destruct A.
    - enter_op H0. unfold arr_fixed. enter_args. rewrite key_eq by (auto; lia). cbn [lift].
      rewrite fetch_operand by (auto; cbn [wbytes]; lia). cbn [lift wbytes].
      erewrite interp_call; [|exact H2|exact H3]. rewrite answer_got. cbn [wbytes].
      replace (ip s + 3 + 4) with (ip s + 7) by lia.
      change (set_ip (set_boff (set_cur (set_ip s (ip s + 1)) (byte_pos s)) 0) (ip s + 7)) with (aligned s 7). rewrite E. reflexivity.
    - destruct (count_class _ _ H0) as (w & EW & EC & EA).
      rewrite (step_at lm bc s _ ltac:(lia) eq_refl), align_eq by auto. rewrite byte_pos_ip. unfold exec_op. rewrite EC.
      unfold arr_pre. enter_args. rewrite key_eq by (auto; lia). cbn [lift]. enter_args. rewrite H2.
      subst rq c. rewrite <- EW in *. rewrite cvar_w in *. erewrite interp_call; [|exact H4|exact H5]. 
      destruct (N.ltb_spec (lenN (buf s)) (byte_pos s + wbytes w)); [lia|]. rewrite write_word_eq.
      destruct (N.leb_spec (byte_pos s + wbytes w) (lenN (buf s))); [|lia]. cbn [lift]. rewrite nbytes_w.
      change (got w 0 r) with (answer (wbytes w) 0 r).
      match type of E with interp _ (enter_array _ ?X _) _ = _ => match goal with |- context [enter_array bc ?Y] => change Y with X end end.
      rewrite E. reflexivity.
    - destruct (count_class _ _ H0) as (w & EW & EC & EA).
      rewrite (step_at lm bc s _ ltac:(lia) eq_refl), align_eq by auto. rewrite byte_pos_ip. unfold exec_op. rewrite EC.
      unfold arr_pre. enter_args. rewrite key_eq by (auto; lia). cbn [lift]. enter_args. rewrite H2.
      subst rq c. rewrite <- EW in *. rewrite cvar_w in *.
      destruct (N.ltb_spec (lenN (buf s)) (byte_pos s + wbytes w)); [lia|]. rewrite read_word_eq by auto.
      destruct (N.leb_spec (byte_pos s + wbytes w) (lenN (buf s))); [|lia]. cbn [lift].
      erewrite interp_call; [|exact H4|exact H5].
      match goal with |- context [got w ?v r] => change (got w v r) with (answer (wbytes w) v r) end.
      match type of E with interp _ (enter_array _ ?X _) _ = _ => match goal with |- context [enter_array bc ?Y] => change Y with X end end.
      rewrite E. reflexivity.
    - enter_op H0. unfold arr_dynamic. enter_args. rewrite key_eq by (auto; lia). cbn [lift].
      rewrite fetch_operand by (auto; cbn [wbytes]; lia). cbn [lift wbytes].
      erewrite interp_call; [|exact H2|exact H3]. change (got W8 0 r1) with c.
      destruct (N.ltb_spec 0xFFFFFFFF c); [change (2 ^ 32) with 4294967296 in *; lia|].
      erewrite interp_call; [|exact H5|exact H6].
      change (got W4 c r2) with (answer 4 c r2). replace (ip s + 3 + 2) with (ip s + 5) by lia.
      change (set_ip (set_boff (set_cur (set_ip s (ip s + 1)) (byte_pos s)) 0) (ip s + 5)) with (aligned s 5). rewrite E. reflexivity.
  Qed.

  Lemma skipn_split (l : list N) : forall k, (k < length l)%nat -> skipn k l = nth k l 0 :: skipn (S k) l.
  Proof. induction l as [|a t IH]; intros [|k] LT; cbn [length] in LT; try lia; [reflexivity|]. cbn [skipn nth]. rewrite IH by lia. reflexivity. Qed.
  Lemma skipn_twice (l : list N) : forall a b, skipn a (skipn b l) = skipn (a + b) l.
  Proof.
    intros a b. revert l. induction b as [|b IH]; intros l; [now rewrite Nat.add_0_r|].
    destruct l; [now rewrite !skipn_nil|]. rewrite Nat.add_succ_r. cbn [skipn]. apply IH.
  Qed.
  Lemma opens_eq b : opens_loop b = true <-> opens b.
  Proof.
    unfold opens_loop, opens. cbn [In]. rewrite !orb_true_iff, !N.eqb_eq. intuition lia.
  Qed.
  Lemma skip_bal l : balanced l -> forall r p d, 0 < d -> skip_scan (l ++ r) p d = skip_scan r (p + lenN l) d.
  Proof.
    induction 1 as [|b l NO NE B IH|b l1 l2 O B1 IH1 B2 IH2]; intros r p d D.
    - cbn [app]. change (lenN (@nil N)) with 0. now rewrite N.add_0_r.
    - cbn [app skip_scan]. destruct (N.eqb_spec d 0); [lia|].
      destruct (opens_loop b) eqn:E; [apply opens_eq in E; easy|]. destruct (N.eqb_spec b 0x38); [easy|].
      rewrite IH by auto. rewrite lenN_cons. f_equal. lia.
    - cbn [app]. cbn [skip_scan]. destruct (N.eqb_spec d 0); [lia|].
      destruct (opens_loop b) eqn:E; [|exfalso; apply opens_eq in O; congruence].
      destruct (N.eqb_spec b 0x38) as [->|]; [discriminate E|].
      rewrite <- app_assoc. rewrite IH1 by lia. cbn [app skip_scan]. destruct (N.eqb_spec (d + 1) 0); [lia|].
      change (opens_loop 0x38) with false. change (0x38 =? 0x38) with true. cbv iota.
      rewrite IH2 by lia. replace (d + 1 - 1) with d by lia. f_equal. rewrite lenN_cons, lenN_app, lenN_cons. lia.
  Qed.
  Lemma skip_body b l : balanced l -> sub bc b (lenN l) = l -> nthN bc (b + lenN l) = 0x38 -> b + lenN l < lenN bc ->
    skip_loop_body bc b = b + lenN l + 1.
  Proof.
    intros B SB E L. unfold skip_loop_body.
    assert (X : skipn (N.to_nat b) bc = l ++ 0x38 :: skipn (N.to_nat (b + lenN l + 1)) bc).
    { rewrite <- (firstn_skipn (N.to_nat (lenN l)) (skipn (N.to_nat b) bc)). change (firstn (N.to_nat (lenN l)) (skipn (N.to_nat b) bc)) with (sub bc b (lenN l)).
      rewrite SB. f_equal. rewrite skipn_twice. replace (N.to_nat (lenN l) + N.to_nat b)%nat with (N.to_nat (b + lenN l)) by lia.
      rewrite <- E. unfold nthN. replace (N.to_nat (b + lenN l + 1)) with (S (N.to_nat (b + lenN l))) by lia.
      apply skipn_split. unfold lenN in *; lia. }
    rewrite X, skip_bal by (auto; lia). cbn [skip_scan]. change (1 =? 0) with false. change (opens_loop 0x38) with false. change (0x38 =? 0x38) with true. cbv iota.
    destruct (skipn (N.to_nat (b + lenN l + 1)) bc); reflexivity.
  Qed.

  Lemma enter_zero x h l : balanced l -> sub bc (ip x) (lenN l) = l -> nthN bc (ip x + lenN l) = 0x38 -> ip x + lenN l < lenN bc ->
    interp host (enter_array bc x 0) h = (SCont (set_ip x (ip x + lenN l + 1)), h, []).
  Proof. intros. unfold enter_array. change (0 <? 0) with false. cbv iota. erewrite skip_body by eauto. reflexivity. Qed.
  Lemma push_loop x h c : lenN (loops x) < 8 ->
    interp host (loop_push x c) h = (SCont (set_loops x ((ip x, c) :: loops x)), h, []).
  Proof.
    intros L. unfold loop_push, max_loop_depth, arr_push. destruct (N.leb_spec 8 (lenN (loops x))); [lia|].
    destruct (N.ltb_spec (lenN (loops x)) 8); [reflexivity|lia].
  Qed.
  Lemma push_loop_full x h c : 8 <= lenN (loops x) -> interp host (loop_push x c) h = (SHalt EOob x, h, []).
  Proof. intros L. unfold loop_push, max_loop_depth. destruct (N.leb_spec 8 (lenN (loops x))); [reflexivity|lia]. Qed.
  Lemma enter_loop x h c : 0 < c -> ~ byte_elements bc x \/ lenN (buf x) < cur x + c ->
    interp host (enter_array bc x c) h = interp host (loop_push x c) h.
  Proof.
    intros C NB. unfold enter_array, try_bulk. destruct (N.ltb_spec 0 c); [|lia]. destruct (N.eqb_spec c 0); [lia|].
    destruct (N.leb_spec (lenN bc) (ip x + 3)); [reflexivity|]. rewrite !mem_eq.
    destruct (N.ltb_spec (ip x) (lenN bc)); [|lia]. destruct (N.ltb_spec (ip x + 3) (lenN bc)); [|lia]. cbn [lift].
    destruct (((nthN bc (ip x) =? 16) || (nthN bc (ip x) =? 20)) && (nthN bc (ip x + 3) =? 56)) eqn:EB; [|reflexivity].
    destruct (N.ltb_spec (ip x + 1) (lenN bc)); [|lia]. destruct (N.ltb_spec (ip x + 2) (lenN bc)); [|lia]. cbn [lift]. unfold dlen.
    destruct NB as [NB|NB].
    - exfalso. apply NB. unfold byte_elements. apply andb_prop in EB. destruct EB as [E1 E2].
      apply N.eqb_eq in E2. apply orb_prop in E1. rewrite !N.eqb_eq in E1. auto.
    - destruct (N.ltb_spec (lenN (buf x)) (cur x + c)); [reflexivity|lia].
  Qed.
  Lemma bulk_key p : p + 1 < lenN bc -> N.lor (nthN bc p) (N.shiftl (nthN bc (p + 1)) 8) = val_of LE (sub bc p 2).
  Proof.
    intros L. assert (E : sub bc p 2 = [nthN bc p; nthN bc (p + 1)]).
    { apply nthN_ext; rewrite lenN_sub by lia; auto. intros i Hi. rewrite nthN_sub by auto.
      assert (C : i = 0 \/ i = 1) by lia. destruct C as [-> | ->]; [now rewrite N.add_0_r|reflexivity]. }
    rewrite E. cbn [val_of le_val]. rewrite N.shiftl_mul_pow2. rewrite (lor_disjoint' _ _ 8) by (try (now apply wf_nthN); now apply N.mod_mul). change (2 ^ 8) with 256. lia.
  Qed.
  Lemma enter_bulk x h c h1 r : 0 < c -> byte_elements bc x -> cur x + c <= lenN (buf x) ->
    let rq := ask (key_at bc x) 0x39 (PBuf (cur x) (sub (buf x) (cur x) c)) (HRaw c) in
    host h rq = (h1, r) ->
    (r_ok r = true -> interp host (enter_array bc x c) h =
       (SCont (set_ip (set_cur (set_buf x (put (buf x) (cur x) (cut c (map (fun v => v mod 256) (r_bytes r))))) (cur x + c)) (ip x + 4)), h1, [(rq, r)])) /\
    (r_ok r = false -> r_bytes r = [] -> interp host (enter_array bc x c) h =
       (let '(y, h2, t) := interp host (loop_push x c) h1 in (y, h2, (rq, r) :: t))).
  Proof.
    intros C (B1 & B2 & B3) L rq HH. unfold enter_array, try_bulk. destruct (N.ltb_spec 0 c); [|lia]. destruct (N.eqb_spec c 0); [lia|].
    destruct (N.leb_spec (lenN bc) (ip x + 3)); [lia|]. rewrite !mem_eq.
    destruct (N.ltb_spec (ip x) (lenN bc)); [|lia]. destruct (N.ltb_spec (ip x + 3) (lenN bc)); [|lia]. cbn [lift].
    destruct (((nthN bc (ip x) =? 16) || (nthN bc (ip x) =? 20)) && (nthN bc (ip x + 3) =? 56)) eqn:EB.
    2: { exfalso. rewrite B2 in EB. destruct B1 as [B1|B1]; rewrite B1 in EB; discriminate EB. }
    destruct (N.ltb_spec (ip x + 1) (lenN bc)); [|lia]. destruct (N.ltb_spec (ip x + 2) (lenN bc)); [|lia]. cbn [lift]. unfold dlen.
    destruct (N.ltb_spec (lenN (buf x)) (cur x + c)); [lia|]. rewrite slice_eq.
    destruct (N.leb_spec (cur x + c) (lenN (buf x))); [|lia]. cbn [lift].
    replace (ip x + 2) with (ip x + 1 + 1) by lia. rewrite bulk_key by lia.
    change (val_of LE (sub bc (ip x + 1) 2)) with (key_at bc x).
    change {| rq_key := key_at bc x; rq_op := 57; rq_pl := PBuf (cur x) (sub (buf x) (cur x) c); rq_how := HRaw c |} with rq.
    split.
    - intros R. erewrite interp_ask; [|exact HH]. unfold host_write. fold (cut c (map (fun v => v mod 256) (r_bytes r))).
      rewrite splice_eq. destruct (N.leb_spec (cur x + lenN (cut c (map (fun v => v mod 256) (r_bytes r)))) (lenN (buf x))).
      2: { assert (lenN (cut c (map (fun v => v mod 256) (r_bytes r))) <= c) by (unfold cut, lenN; rewrite firstn_length; lia). lia. }
      cbn [lift]. rewrite R. reflexivity.
    - intros R RB. erewrite interp_ask; [|exact HH]. unfold host_write. rewrite RB. cbn [map]. rewrite firstn_nil, splice_eq.
      change (lenN (@nil N)) with 0. destruct (N.leb_spec (cur x + 0) (lenN (buf x))); [|lia]. cbn [lift]. rewrite R, put_nil by lia.
      destruct x; reflexivity.
  Qed.

  (** The end of the loop *)
  Lemma end_again s h b left rest : nthN bc (ip s) = 0x38 -> ip s < lenN bc -> boff s < 8 ->
    loops s = (b, left) :: rest -> 1 < left < eof_mark ->
    interp host (step lm bc s) h = (SCont (back b (left - 1) rest s), h, []).
  Proof.
    intros HO HI B HL HR. enter_op HO. unfold arr_end. enter_args. rewrite HL.
    destruct (N.eqb_spec left eof_mark); [lia|]. destruct (N.ltb_spec 0 left); [|lia].
    destruct (N.ltb_spec 0 (left - 1)); [|lia]. reflexivity.
  Qed.
  Lemma end_last s h b rest h1 r : nthN bc (ip s) = 0x38 -> ip s < lenN bc -> boff s < 8 ->
    loops s = (b, 1) :: rest ->
    let rq := ask 0 0x38 PNone HNote in host h rq = (h1, r) -> r_ok r = true ->
    interp host (step lm bc s) h = (SCont (set_loops (aligned s 1) rest), h1, [(rq, r)]).
  Proof.
    intros HO HI B HL rq HH HR. enter_op HO. unfold arr_end. enter_args. rewrite HL.
    change (1 =? eof_mark) with false. change (0 <? 1) with true. change (1 - 1) with 0. change (0 <? 0) with false. cbv iota. change (0 <? 0) with false. cbv iota.
    erewrite interp_call; [|exact HH|exact HR]. reflexivity.
  Qed.
  Lemma eof_again s h b rest : nthN bc (ip s) = 0x38 -> ip s < lenN bc -> boff s < 8 ->
    loops s = (b, eof_mark) :: rest -> byte_pos s < lenN (buf s) ->
    interp host (step lm bc s) h = (SCont (set_ip (aligned s 1) b), h, []).
  Proof.
    intros HO HI B HL HP. enter_op HO. unfold arr_end. enter_args. rewrite HL, N.eqb_refl.
    destruct (N.ltb_spec (byte_pos s) (lenN (buf s))); [reflexivity|lia].
  Qed.
  Lemma eof_last s h b rest h1 r : nthN bc (ip s) = 0x38 -> ip s < lenN bc -> boff s < 8 ->
    loops s = (b, eof_mark) :: rest -> lenN (buf s) <= byte_pos s ->
    let rq := ask 0 0x38 PNone HNote in host h rq = (h1, r) -> r_ok r = true ->
    interp host (step lm bc s) h = (SCont (set_loops (aligned s 1) rest), h1, [(rq, r)]).
  Proof.
    intros HO HI B HL HP rq HH HR. enter_op HO. unfold arr_end. enter_args. rewrite HL, N.eqb_refl.
    destruct (N.ltb_spec (byte_pos s) (lenN (buf s))); [lia|].
    erewrite interp_call; [|exact HH|exact HR]. reflexivity.
  Qed.
  Lemma eof_header s h : opcode_at bc s = 0x3A -> ip s + 3 <= lenN bc -> boff s < 8 -> lenN (loops s) < 8 ->
    byte_pos s < lenN (buf s) ->
    interp host (step lm bc s) h = (SCont (set_loops (aligned s 3) ((ip s + 3, eof_mark) :: loops s)), h, []).
  Proof.
    intros HO HI B HL HP. enter_op HO. unfold arr_eof. enter_args. rewrite key_eq by (auto; lia). cbn [lift]. enter_args.
    unfold max_loop_depth, arr_push. destruct (N.leb_spec 8 (lenN (loops s))); [lia|]. destruct (N.ltb_spec (lenN (loops s)) 8); [|lia].
    cbn [lift]. enter_args. cbn [buf cur ip set_loops set_ip set_boff set_cur]. destruct (N.leb_spec (lenN (buf s)) (byte_pos s)); [lia|]. reflexivity.
  Qed.
  Lemma eof_header_empty s h l : opcode_at bc s = 0x3A -> boff s < 8 -> lenN (loops s) < 8 ->
    lenN (buf s) <= byte_pos s -> balanced l -> sub bc (ip s + 3) (lenN l) = l -> nthN bc (ip s + 3 + lenN l) = 0x38 ->
    ip s + 3 + lenN l < lenN bc ->
    interp host (step lm bc s) h = (SCont (set_loops (aligned s (3 + lenN l + 1)) ((ip s + 3, eof_mark) :: loops s)), h, []).
  Proof.
    intros HO B HL HP BL S E HI. enter_op HO. unfold arr_eof. enter_args. rewrite key_eq by (auto; lia). cbn [lift]. enter_args.
    unfold max_loop_depth, arr_push. destruct (N.leb_spec 8 (lenN (loops s))); [lia|]. destruct (N.ltb_spec (lenN (loops s)) 8); [|lia].
    cbn [lift]. enter_args. cbn [buf cur ip set_loops set_ip set_boff set_cur]. destruct (N.leb_spec (lenN (buf s)) (byte_pos s)); [|lia]. erewrite skip_body by eauto. cbn [interp].
    unfold aligned. replace (ip s + (3 + lenN l + 1)) with (ip s + 3 + lenN l + 1) by lia. reflexivity.
  Qed.

  (** Laps *)
  Hypothesis BL : lenN bc < 2 ^ 62.
  Lemma sane_Inv s : sane s <-> Inv False s.
  Proof.
    split; [intros (A & B & C & D); constructor; auto; easy|intros [A B C D E]; repeat split; auto].
  Qed.
  Lemma reaches_sane s h s' h' : sane s -> reaches host lm bc s h s' h' -> sane s' /\ lenN (buf s') = lenN (buf s) /\ position s <= position s' /\ md s' = md s.
  Proof.
    intros S R. apply sane_Inv in S.
    pose proof (reaches_mono host lm bc False False False ltac:(easy) ltac:(easy) BL WB s h s' h' S R ltac:(easy)) as [M1 M2 M3 M4 _ _].
    split; [now apply sane_Inv|]. auto.
  Qed.
  Lemma sane_back b left rest s : sane s -> lenN rest < 8 -> sane (back b left rest s).
  Proof.
    intros (A & B & C & D) L. unfold back, sane, aligned. cbn [buf boff stk loops set_ip set_loops set_boff set_cur]. split; [auto|]. split; [lia|]. split; [auto|]. rewrite lenN_cons. lia.
  Qed.

  Lemma laps_reach b e rest m left s h s' h' : laps host lm bc b e rest m left s h s' h' ->
    sane s -> lenN rest < 8 -> loops s = (b, left) :: rest -> N.of_nat m <= left < eof_mark ->
    nthN bc e = 0x38 -> e < lenN bc ->
    reaches host lm bc s h s' h' /\ sane s' /\ ip s' = e /\ loops s' = (b, left - N.of_nat m + 1) :: rest.
  Proof.
    intros LP. induction LP as [left s h s' h' P|m left s h s1 h1 s' h' P LP IH]; intros SA LR HL HM HE HI;
      destruct P as (P1 & P2 & P3 & P4).
    - destruct (reaches_sane _ _ _ _ SA P2) as [SA' _]. repeat split; auto; try apply SA'. rewrite P4, HL. do 2 f_equal. lia.
    - destruct (reaches_sane _ _ _ _ SA P2) as [SA1 _].
      assert (M0 : (1 <= m)%nat) by (inversion LP; lia).
      assert (ST : interp host (step lm bc s1) h1 = (SCont (back b (left - 1) rest s1), h1, [])).
      { apply end_again; try (rewrite P3; auto); try congruence; [apply SA1|lia]. }
      destruct IH as (R & S' & I' & L'); auto; try lia.
      + now apply sane_back.
      + split.
        { eapply reaches_trans; [exact P2|]. eapply reaches_trans; [|exact R]. eapply reach_step; [apply reach_refl|rewrite P3; auto|exact ST]. }
        repeat split; auto; try apply S'. rewrite L'. do 2 f_equal. lia.
  Qed.

  Lemma counted b e rest c s h s' h' : laps host lm bc b e rest (N.to_nat c) c s h s' h' ->
    sane s -> lenN rest < 8 -> loops s = (b, c) :: rest -> 0 < c < eof_mark -> nthN bc e = 0x38 -> e < lenN bc ->
    let rq := ask 0 0x38 PNone HNote in forall h2 r, host h' rq = (h2, r) -> r_ok r = true ->
    interp host (step lm bc s') h' = (SCont (set_loops (aligned s' 1) rest), h2, [(rq, r)]) /\
    reaches host lm bc s h (set_loops (aligned s' 1) rest) h2.
  Proof.
    intros LP SA LR HL HC HE HI rq h2 r HH HR.
    destruct (laps_reach _ _ _ _ _ _ _ _ _ LP SA LR HL ltac:(lia) HE HI) as (R & S' & I' & L').
    replace (c - N.of_nat (N.to_nat c) + 1) with 1 in L' by lia.
    assert (ST : interp host (step lm bc s') h' = (SCont (set_loops (aligned s' 1) rest), h2, [(rq, r)])).
    { eapply end_last; eauto; try (rewrite I'; auto). apply S'. }
    split; [exact ST|]. eapply reach_step; [exact R|rewrite I'; auto|exact ST].
  Qed.
  Lemma counted_more b e rest m c s h s' h' : laps host lm bc b e rest m c s h s' h' ->
    sane s -> lenN rest < 8 -> loops s = (b, c) :: rest -> N.of_nat m < c < eof_mark -> nthN bc e = 0x38 -> e < lenN bc ->
    reaches host lm bc s h s' h' /\
    interp host (step lm bc s') h' = (SCont (back b (c - N.of_nat m) rest s'), h', []).
  Proof.
    intros LP SA LR HL HC HE HI.
    destruct (laps_reach _ _ _ _ _ _ _ _ _ LP SA LR HL ltac:(lia) HE HI) as (R & S' & I' & L').
    split; [exact R|]. assert (M0 : (1 <= m)%nat) by (clear - LP; inversion LP; lia).
    pose proof (end_again s' h' b (c - N.of_nat m + 1) rest) as ST. replace (c - N.of_nat m + 1 - 1) with (c - N.of_nat m) in ST by lia.
    apply ST; try (rewrite I'; auto); auto; [apply S'|lia].
  Qed.

  Lemma byte_pos_aligned s k b : byte_pos (set_ip (aligned s k) b) = byte_pos s.
  Proof. unfold aligned, byte_pos at 1, position. cbn [cur boff set_ip set_boff set_cur]. generalize (byte_pos s). intros. lia. Qed.
  Lemma eof_reach b e k m s h s' h' : eof_laps host lm bc b e k m s h s' h' ->
    forall rest, sane s -> loops s = (b, eof_mark) :: rest -> byte_pos s + N.of_nat m * k <= lenN (buf s) -> 0 < k ->
    nthN bc e = 0x38 -> e < lenN bc ->
    reaches host lm bc s h s' h' /\ sane s' /\ ip s' = e /\ loops s' = (b, eof_mark) :: rest /\
    byte_pos s' = byte_pos s + N.of_nat m * k /\ lenN (buf s') = lenN (buf s).
  Proof.
    induction 1 as [s h s' h' P K|m s h s1 h1 s' h' P K LP IH]; intros rest SA HL HP HK HE HI; destruct P as (P1 & P2 & P3 & P4);
      destruct (reaches_sane _ _ _ _ SA P2) as (SA1 & LB & _).
    - repeat split; auto; try apply SA1; try congruence. lia.
    - assert (M0 : (1 <= m)%nat) by (inversion LP; lia).
      assert (SN : sane (set_ip (aligned s1 1) b)).
      { destruct SA1 as (A & B & C & D). repeat split; auto; cbn [boff set_ip aligned set_boff set_cur]; lia. }
      assert (KM : N.of_nat (S m) * k = k + N.of_nat m * k) by lia. assert (KM1 : 1 * k <= N.of_nat m * k) by (apply N.mul_le_mono_r; lia).
      assert (ST : interp host (step lm bc s1) h1 = (SCont (set_ip (aligned s1 1) b), h1, [])).
      { eapply eof_again; try (rewrite P3; auto); [apply SA1|rewrite P4; exact HL|lia]. }
      specialize (IH rest SN). rewrite byte_pos_aligned in IH. cbn [loops set_ip aligned set_boff set_cur buf] in IH.
      destruct IH as (R & S' & I' & L' & B' & LB'); auto; try congruence; try lia.
      split.
      { eapply reaches_trans; [exact P2|]. eapply reaches_trans; [|exact R]. eapply reach_step; [apply reach_refl|rewrite P3; auto|exact ST]. }
      repeat split; auto; try apply S'; try congruence. lia.
  Qed.
  Lemma eof_all b e k m s h s' h' rest : eof_laps host lm bc b e k m s h s' h' ->
    sane s -> loops s = (b, eof_mark) :: rest -> byte_pos s + N.of_nat m * k = lenN (buf s) -> 0 < k ->
    nthN bc e = 0x38 -> e < lenN bc ->
    let rq := ask 0 0x38 PNone HNote in forall h2 r, host h' rq = (h2, r) -> r_ok r = true ->
    let z := set_loops (aligned s' 1) rest in
    interp host (step lm bc s') h' = (SCont z, h2, [(rq, r)]) /\
    reaches host lm bc s h z h2 /\ position z = 8 * lenN (buf z) /\ ip z = e + 1.
  Proof.
    intros LP SA HL HP HK HE HI rq h2 r HH HR z.
    destruct (eof_reach _ _ _ _ _ _ _ _ LP rest SA HL ltac:(lia) HK HE HI) as (R & S' & I' & L' & B' & LB).
    assert (ST : interp host (step lm bc s') h' = (SCont z, h2, [(rq, r)])).
    { eapply eof_last; eauto; try (rewrite I'; auto); [apply S'|lia]. }
    split; [exact ST|]. split; [eapply reach_step; [exact R|rewrite I'; auto|exact ST]|].
    split; [|cbn; lia]. unfold z, position. cbn [cur boff set_loops aligned set_ip set_boff set_cur buf]. rewrite LB, B', HP. lia.
  Qed.
  Lemma eof_more b e k m s h s' h' rest : eof_laps host lm bc b e k m s h s' h' ->
    sane s -> loops s = (b, eof_mark) :: rest -> byte_pos s + N.of_nat m * k < lenN (buf s) -> 0 < k ->
    nthN bc e = 0x38 -> e < lenN bc ->
    reaches host lm bc s h s' h' /\
    interp host (step lm bc s') h' = (SCont (set_ip (aligned s' 1) b), h', []).
  Proof.
    intros LP SA HL HP HK HE HI.
    destruct (eof_reach _ _ _ _ _ _ _ _ LP rest SA HL ltac:(lia) HK HE HI) as (R & S' & I' & L' & B' & LB).
    split; [exact R|]. eapply eof_again; eauto; try (rewrite I'; auto); [apply S'|lia].
  Qed.

  (** Byte elements one at a time *)
  Lemma opcode_bytes x : byte_elements bc x -> type_bytes (opcode_at bc x) = Some 1.
  Proof. clear BL. intros ([E|E] & _); unfold opcode_at; rewrite E; reflexivity. Qed.
  Definition elem (x : st) (b : list N) (p left : N) (rest : list (N * N)) (o : bool) : st :=
    mkst (md x) b (ip x) p 0 (en x) TNone o ((ip x, left) :: rest) (stk x).
  Lemma elements_enc x rest d : byte_elements bc x -> forall (g : nat -> H) (b : list N) p m o,
    md x = Enc -> lenN d = N.of_nat m -> (0 < m)%nat -> N.of_nat m < eof_mark -> p + N.of_nat m <= lenN b ->
    (forall i, (i < m)%nat -> exists r, host (g i) (ask (key_at bc x) (opcode_at bc x) (cvar 1 0) (HField (opcode_at bc x) TNone)) = (g (S i), r) /\
       r_ok r = true /\ answer 1 0 r = nthN d (N.of_nat i)) ->
    forall h2 r2, host (g m) (ask 0 0x38 PNone HNote) = (h2, r2) -> r_ok r2 = true ->
    reaches host lm bc (elem x b p (N.of_nat m) rest o) (g O)
      (mkst (md x) (put b p d) (ip x + 4) (p + N.of_nat m) 0 (en x) TNone false rest (stk x)) h2.
  Proof. clear BL.
    intros BE. revert d. intros d g b p m o M. revert d g b p o. induction m as [|m IH]; intros d g b p o LD M0 ME LB HG h2 r2 HH HR; [lia|].
    pose proof (opcode_bytes x BE) as HT. destruct BE as (B1 & B2 & B3).
    destruct (HG 0%nat ltac:(lia)) as (r & HH0 & HR0 & HA0).
    set (s := elem x b p (N.of_nat (S m)) rest o).
    assert (BP : byte_pos s = p) by (unfold s, elem, byte_pos, position; cbn [cur boff]; lia).
    assert (OP : opcode_at bc s = opcode_at bc x) by reflexivity.
    destruct d as [|a d]; [cbn in LD; lia|]. rewrite lenN_cons in LD.
    assert (AA : answer 1 0 r = a) by exact HA0.
    assert (A256 : a < 256). { rewrite <- AA. unfold answer. destruct (r_val r); [apply N.mod_lt; discriminate|reflexivity]. }
    pose proof (int_type_bytes) as _. destruct (type_int _ _ HT) as (w & IT & EW & _). assert (w = W1) by (destruct w; cbn in EW; congruence). subst w.
    assert (S1 : interp host (step lm bc s) (g 0%nat) = (SCont (stored s 3 1 a), g 1%nat,
       [(ask (key_at bc x) (opcode_at bc x) (cvar 1 0) (HField (opcode_at bc x) TNone), r)])).
    { pose proof (int_enc host lm bc WB s (g 0%nat) (g 1%nat) r (opcode_at bc x) _ a eq_refl IT ltac:(unfold s, elem; cbn [ip]; lia)
        ltac:(reflexivity) M) as X. cbn [i_w wbytes] in X. rewrite BP in X.
      specialize (X ltac:(unfold s, elem; cbn [buf]; lia) HH0 HR0). apply X. cbn [tr s elem eng_w to_wire]. now rewrite answer_got, <- AA. }
    assert (ST : stored s 3 1 a = mkst (md x) (put b p [a]) (ip x + 3) (p + 1) 0 (en x) TNone false ((ip x, N.of_nat (S m)) :: rest) (stk x)).
    { unfold stored. rewrite BP. unfold s, elem. cbn [md buf ip en loops stk].
      assert (E : bytes_of (en x) (N.to_nat 1) a = [a]). { change (N.to_nat 1) with 1%nat. unfold bytes_of, le_bytes. rewrite N.mod_small by auto. now destruct (en x). } now rewrite E. }
    rewrite ST in S1. clear ST. set (s1 := mkst (md x) (put b p [a]) (ip x + 3) (p + 1) 0 (en x) TNone false ((ip x, N.of_nat (S m)) :: rest) (stk x)) in *.
    assert (BP1 : byte_pos s1 = p + 1) by (unfold s1, byte_pos, position; cbn [cur boff]; lia).
    assert (R1 : reaches host lm bc s (g 0%nat) s1 (g 1%nat)).
    { eapply reach_step; [apply reach_refl| |exact S1]. unfold s, elem; cbn [ip]. lia. }
    assert (PUT : forall q, put b p (a :: q) = put (put b p [a]) (p + 1) q \/ lenN b < p + 1 + lenN q).
    { intros q. destruct (N.le_gt_cases (p + 1 + lenN q) (lenN b)) as [L|L]; [left|right; auto]. 
      apply nthN_ext.
      - rewrite !lenN_put; auto; rewrite ?lenN_put, ?lenN_cons; change (lenN [a]) with 1; change (lenN (@nil N)) with 0; lia.
      - intros i Hi. rewrite !nthN_put by (rewrite ?lenN_put, ?lenN_cons; change (lenN [a]) with 1; change (lenN (@nil N)) with 0; lia).
        rewrite lenN_cons. change (lenN [a]) with 1.
        destruct (N.leb_spec p i), (N.ltb_spec i (p + (lenN q + 1))), (N.leb_spec (p + 1) i), (N.ltb_spec i (p + 1 + lenN q)), (N.ltb_spec i (p + 1));
          cbn [andb]; try lia; auto.
        + unfold nthN. replace (N.to_nat (i - p)) with (S (N.to_nat (i - (p + 1)))) by lia. reflexivity.
        + replace (i - p) with 0 by lia. reflexivity. }
    destruct m as [|m].
    - assert (d = []) by (destruct d; [auto|rewrite lenN_cons in LD; lia]). subst d.
      pose proof (end_last s1 (g 1%nat) (ip x) rest h2 r2 B2 B3 ltac:(reflexivity) eq_refl HH HR) as S2.
      eapply reach_step; [exact R1|exact B3|].
      replace (mkst (md x) (put b p [a]) (ip x + 4) (p + N.of_nat 1) 0 (en x) TNone false rest (stk x)) with (set_loops (aligned s1 1) rest); [exact S2|].
      unfold aligned. rewrite BP1. unfold s1, set_loops, set_ip, set_boff, set_cur. cbn [md buf ip cur boff en tr opt loops stk]. f_equal; lia.
    - pose proof (end_again s1 (g 1%nat) (ip x) (N.of_nat (S (S m))) rest B2 B3 ltac:(reflexivity) eq_refl ltac:(lia)) as S2.
      assert (EB : back (ip x) (N.of_nat (S (S m)) - 1) rest s1 = elem x (put b p [a]) (p + 1) (N.of_nat (S m)) rest false).
      { unfold back, aligned, elem. rewrite BP1. unfold s1, set_loops, set_ip, set_boff, set_cur. cbn [md buf ip cur boff en tr opt loops stk]. repeat f_equal; lia. }
      rewrite EB in S2.
      eapply reaches_trans; [exact R1|]. eapply reaches_trans; [eapply reach_step; [apply reach_refl|exact B3|exact S2]|].
      destruct (PUT d) as [PE|]; [|lia]. rewrite PE. 
      replace (p + N.of_nat (S (S m))) with (p + 1 + N.of_nat (S m)) by lia.
      apply (IH d (fun i => g (S i)) (put b p [a]) (p + 1) false) with (r2 := r2); auto; try lia.
      + rewrite lenN_put; [lia|change (lenN [a]) with 1; lia].
      + intros i Hi. destruct (HG (S i) ltac:(lia)) as (ri & X1 & X2 & X3). exists ri. split; [exact X1|]. split; [exact X2|].
        rewrite X3. unfold nthN. replace (N.to_nat (N.of_nat (S i))) with (S (N.to_nat (N.of_nat i))) by lia. reflexivity.
  Qed.
  Lemma elements_dec x rest b : byte_elements bc x -> wf_bytes b -> forall (g : nat -> H) p m o,
    md x = Dec -> (0 < m)%nat -> N.of_nat m < eof_mark -> p + N.of_nat m <= lenN b ->
    (forall i, (i < m)%nat -> exists r, host (g i) (ask (key_at bc x) (opcode_at bc x) (cvar 1 (nthN b (p + N.of_nat i)))
        (HField (opcode_at bc x) TNone)) = (g (S i), r) /\ r_ok r = true) ->
    forall h2 r2, host (g m) (ask 0 0x38 PNone HNote) = (h2, r2) -> r_ok r2 = true ->
    reaches host lm bc (elem x b p (N.of_nat m) rest o) (g O)
      (mkst (md x) b (ip x + 4) (p + N.of_nat m) 0 (en x) TNone false rest (stk x)) h2.
  Proof. clear BL.
    intros BE WF g p m o M. revert g p o. induction m as [|m IH]; intros g p o M0 ME LB HG h2 r2 HH HR; [lia|].
    pose proof (opcode_bytes x BE) as HT. destruct BE as (B1 & B2 & B3).
    destruct (HG 0%nat ltac:(lia)) as (r & HH0 & HR0). rewrite N.add_0_r in HH0.
    set (s := elem x b p (N.of_nat (S m)) rest o).
    assert (BP : byte_pos s = p) by (unfold s, elem, byte_pos, position; cbn [cur boff]; lia).
    destruct (type_int _ _ HT) as (w & IT & EW & _). assert (w = W1) by (destruct w; cbn in EW; congruence). subst w.
    assert (VAL : val_of (en x) (sub b p 1) = nthN b p).
    { assert (E : sub b p 1 = [nthN b p]).
      { apply nthN_ext; rewrite lenN_sub by lia; auto. intros i Hi. rewrite nthN_sub by auto. replace i with 0 by lia. now rewrite N.add_0_r. }
      rewrite E. destruct (en x); cbn; lia. }
    assert (S1 : interp host (step lm bc s) (g 0%nat) = (SCont (taken s 3 1), g 1%nat,
       [(ask (key_at bc x) (opcode_at bc x) (cvar 1 (nthN b p)) (HField (opcode_at bc x) TNone), r)])).
    { pose proof (int_dec host lm bc WB s (g 0%nat) (g 1%nat) r (opcode_at bc x) _ (nthN b p) eq_refl IT ltac:(unfold s, elem; cbn [ip]; lia)
        ltac:(reflexivity) M) as X. cbn [i_w wbytes] in X. rewrite BP in X.
      specialize (X ltac:(unfold s, elem; cbn [buf]; lia) WF HH0 HR0). apply X. cbn [tr s elem from_wire en buf]. now rewrite VAL. }
    assert (ST : taken s 3 1 = mkst (md x) b (ip x + 3) (p + 1) 0 (en x) TNone false ((ip x, N.of_nat (S m)) :: rest) (stk x)).
    { unfold taken. rewrite BP. reflexivity. }
    rewrite ST in S1. clear ST. set (s1 := mkst (md x) b (ip x + 3) (p + 1) 0 (en x) TNone false ((ip x, N.of_nat (S m)) :: rest) (stk x)) in *.
    assert (BP1 : byte_pos s1 = p + 1) by (unfold s1, byte_pos, position; cbn [cur boff]; lia).
    assert (R1 : reaches host lm bc s (g 0%nat) s1 (g 1%nat)).
    { eapply reach_step; [apply reach_refl| |exact S1]. unfold s, elem; cbn [ip]. lia. }
    destruct m as [|m].
    - pose proof (end_last s1 (g 1%nat) (ip x) rest h2 r2 B2 B3 ltac:(reflexivity) eq_refl HH HR) as S2.
      eapply reach_step; [exact R1|exact B3|].
      replace (mkst (md x) b (ip x + 4) (p + N.of_nat 1) 0 (en x) TNone false rest (stk x)) with (set_loops (aligned s1 1) rest); [exact S2|].
      unfold aligned. rewrite BP1. unfold s1, set_loops, set_ip, set_boff, set_cur. cbn [md buf ip cur boff en tr opt loops stk]. f_equal; lia.
    - pose proof (end_again s1 (g 1%nat) (ip x) (N.of_nat (S (S m))) rest B2 B3 ltac:(reflexivity) eq_refl ltac:(lia)) as S2.
      assert (EB : back (ip x) (N.of_nat (S (S m)) - 1) rest s1 = elem x b (p + 1) (N.of_nat (S m)) rest false).
      { unfold back, aligned, elem. rewrite BP1. unfold s1, set_loops, set_ip, set_boff, set_cur. cbn [md buf ip cur boff en tr opt loops stk]. repeat f_equal; lia. }
      rewrite EB in S2.
      eapply reaches_trans; [exact R1|]. eapply reaches_trans; [eapply reach_step; [apply reach_refl|exact B3|exact S2]|].
      replace (p + N.of_nat (S (S m))) with (p + 1 + N.of_nat (S m)) by lia.
      apply (IH (fun i => g (S i)) (p + 1) false) with (r2 := r2); auto; try lia.
      intros i Hi. destruct (HG (S i) ltac:(lia)) as (ri & X1 & X2). exists ri. split; [|exact X2].
      replace (p + 1 + N.of_nat i) with (p + N.of_nat (S i)) by lia. exact X1.
  Qed.

  (** Whole arrays *)
  Lemma starts_kept s h c x h1 t : array_starts host bc s h c x h1 t -> sane s ->
    loops x = loops s /\ sane x /\ ip s < lenN bc /\ boff x = 0.
  Proof. clear BL.
    intros A (S1 & S2 & S3 & S4). destruct A; unfold sane; cbn [loops buf boff stk aligned set_ip set_boff set_cur set_buf].
    1,3,4: repeat split; auto; lia.
    split; [auto|]. split; [|split; [lia|auto]]. split; [|repeat split; auto; lia].
    apply wf_put; auto; [apply wf_bytes_of|]. rewrite lenN_bytes_of. lia.
  Qed.
  Lemma header_one s h c x h1 t : array_starts host bc s h c x h1 t -> sane s ->
    forall y h2 t2, interp host (enter_array bc x c) h1 = (SCont y, h2, t2) -> reaches host lm bc s h y h2.
  Proof. clear BL.
    intros A SA y h2 t2 E. eapply reach_step; [apply reach_refl| |].
    - eapply starts_kept; eauto.
    - eapply header_enters; eauto; apply SA.
  Qed.
  Lemma counted_array s h c x h1 t e s' h' : array_starts host bc s h c x h1 t -> sane s -> lenN (loops s) < 8 ->
    0 < c < eof_mark -> ~ byte_elements bc x \/ lenN (buf x) < cur x + c ->
    nthN bc e = 0x38 -> e < lenN bc ->
    let x1 := set_loops x ((ip x, c) :: loops s) in
    laps host lm bc (ip x) e (loops s) (N.to_nat c) c x1 h1 s' h' ->
    let rq := ask 0 0x38 PNone HNote in forall h2 r, host h' rq = (h2, r) -> r_ok r = true ->
    let z := set_loops (aligned s' 1) (loops s) in
    reaches host lm bc s h x1 h1 /\ interp host (step lm bc s') h' = (SCont z, h2, [(rq, r)]) /\
    reaches host lm bc s h z h2 /\ ip z = e + 1.
  Proof.
    intros A SA HL HC NB HE HI x1 LP rq h2 r HH HR z. destruct (starts_kept _ _ _ _ _ _ A SA) as (LX & SX & _ & _).
    assert (R1 : reaches host lm bc s h x1 h1).
    { eapply header_one; eauto. rewrite enter_loop by (auto; lia). rewrite push_loop by (rewrite LX; auto). unfold x1. rewrite LX. reflexivity. }
    assert (S1 : sane x1).
    { destruct SX as (A1 & A2 & A3 & A4). repeat split; auto. unfold x1. cbn [loops set_loops]. rewrite lenN_cons. lia. }
    destruct (counted _ _ _ _ _ _ _ _ LP S1 HL eq_refl HC HE HI h2 r HH HR) as [C1 C2].
    split; [exact R1|]. split; [exact C1|]. split; [eapply reaches_trans; eauto|].
    destruct (laps_reach _ _ _ _ _ _ _ _ _ LP S1 HL eq_refl ltac:(lia) HE HI) as (_ & _ & I' & _).
    unfold z. cbn [ip set_loops aligned set_ip]. now rewrite I'.
  Qed.
  Lemma counted_prefix s h c x h1 t e m s' h' : array_starts host bc s h c x h1 t -> sane s -> lenN (loops s) < 8 ->
    c < eof_mark -> ~ byte_elements bc x \/ lenN (buf x) < cur x + c ->
    nthN bc e = 0x38 -> e < lenN bc -> N.of_nat m < c ->
    let x1 := set_loops x ((ip x, c) :: loops s) in
    laps host lm bc (ip x) e (loops s) m c x1 h1 s' h' ->
    reaches host lm bc s h s' h' /\
    interp host (step lm bc s') h' = (SCont (back (ip x) (c - N.of_nat m) (loops s) s'), h', []).
  Proof.
    intros A SA HL HC NB HE HI HM x1 LP. destruct (starts_kept _ _ _ _ _ _ A SA) as (LX & SX & _ & _).
    assert (R1 : reaches host lm bc s h x1 h1).
    { eapply header_one; eauto. rewrite enter_loop by (auto; lia). rewrite push_loop by (rewrite LX; auto). unfold x1. rewrite LX. reflexivity. }
    assert (S1 : sane x1).
    { destruct SX as (A1 & A2 & A3 & A4). repeat split; auto. unfold x1. cbn [loops set_loops]. rewrite lenN_cons. lia. }
    destruct (counted_more _ _ _ _ _ _ _ _ _ LP S1 HL eq_refl ltac:(lia) HE HI) as [C1 C2].
    split; [eapply reaches_trans; eauto|exact C2].
  Qed.
  Lemma zero_array s h x h1 t l : array_starts host bc s h 0 x h1 t -> sane s ->
    balanced l -> sub bc (ip x) (lenN l) = l -> nthN bc (ip x + lenN l) = 0x38 -> ip x + lenN l < lenN bc ->
    interp host (step lm bc s) h = (SCont (set_ip x (ip x + lenN l + 1)), h1, t).
  Proof. clear BL.
    intros A SA BA SB E L. rewrite <- (app_nil_r t). eapply header_enters; eauto; try apply SA. eapply enter_zero; eauto.
  Qed.
  Lemma eof_array s h e k m s' h' : opcode_at bc s = 0x3A -> ip s + 3 <= lenN bc -> sane s -> lenN (loops s) < 8 ->
    nthN bc e = 0x38 -> e < lenN bc -> 0 < k -> (0 < m)%nat -> byte_pos s + N.of_nat m * k = lenN (buf s) ->
    let x1 := set_loops (aligned s 3) ((ip s + 3, eof_mark) :: loops s) in
    eof_laps host lm bc (ip s + 3) e k m x1 h s' h' ->
    let rq := ask 0 0x38 PNone HNote in forall h2 r, host h' rq = (h2, r) -> r_ok r = true ->
    let z := set_loops (aligned s' 1) (loops s) in
    interp host (step lm bc s) h = (SCont x1, h, []) /\
    interp host (step lm bc s') h' = (SCont z, h2, [(rq, r)]) /\
    reaches host lm bc s h z h2 /\ position z = 8 * lenN (buf z) /\ ip z = e + 1.
  Proof.
    intros HO HI SA HL HE HEI HK HM HP x1 LP rq h2 r HH HR z.
    assert (1 * k <= N.of_nat m * k) by (apply N.mul_le_mono_r; lia).
    assert (ST : interp host (step lm bc s) h = (SCont x1, h, [])). { apply eof_header; auto; [apply SA|lia]. }
    assert (S1 : sane x1).
    { destruct SA as (A1 & A2 & A3 & A4). unfold x1. split; [auto|]. split; [cbn; lia|]. split; [auto|]. cbn [loops set_loops]. rewrite lenN_cons. lia. }
    assert (BP : byte_pos x1 = byte_pos s). { unfold x1, aligned, byte_pos at 1, position. cbn [cur boff set_loops set_boff set_cur set_ip]. generalize (byte_pos s). clear. intros. lia. }
    destruct (eof_all _ _ _ _ _ _ _ _ (loops s) LP S1 eq_refl ltac:(rewrite BP; exact HP) HK HE HEI h2 r HH HR) as (C1 & C2 & C3 & C4).
    split; [exact ST|]. split; [exact C1|]. split; [|split; assumption].
    eapply reaches_trans; [|exact C2]. eapply reach_step; [apply reach_refl|lia|exact ST].
  Qed.

  (** Bulk transfer against single elements *)
  Lemma map_small l : wf_bytes l -> map (fun v => v mod 256) l = l.
  Proof. clear BL. induction 1; cbn [map]; [auto|]. rewrite N.mod_small by auto. now f_equal. Qed.
  Lemma bulk_same s h c x h1 t : array_starts host bc s h c x h1 t -> sane s ->
    0 < c -> byte_elements bc x -> cur x + c <= lenN (buf x) ->
    let rq := ask (key_at bc x) 0x39 (PBuf (cur x) (sub (buf x) (cur x) c)) (HRaw c) in
    forall h2 r, host h1 rq = (h2, r) -> r_ok r = true -> wf_bytes (r_bytes r) -> lenN (r_bytes r) <= c ->
    reaches host lm bc s h (set_ip (set_cur (set_buf x (put (buf x) (cur x) (r_bytes r))) (cur x + c)) (ip x + 4)) h2.
  Proof. clear BL.
    intros A SA HC BE L rq h2 r HH HR WR LR. destruct (enter_bulk x h1 c h2 r HC BE L HH) as [X _]. specialize (X HR).
    rewrite map_small in X by auto.
    assert (E : cut c (r_bytes r) = r_bytes r). { unfold cut. apply firstn_all2. unfold lenN in LR. lia. }
    rewrite E in X. eapply header_one; eauto.
  Qed.
  Lemma single_start s h c x h1 t : array_starts host bc s h c x h1 t -> sane s -> lenN (loops s) < 8 ->
    0 < c -> byte_elements bc x -> cur x + c <= lenN (buf x) -> tr x = TNone ->
    let rq := ask (key_at bc x) 0x39 (PBuf (cur x) (sub (buf x) (cur x) c)) (HRaw c) in
    forall h2 r, host h1 rq = (h2, r) -> r_ok r = false -> r_bytes r = [] ->
    reaches host lm bc s h (elem x (buf x) (cur x) c (loops x) (opt x)) h2.
  Proof. clear BL.
    intros A SA HL HC BE L T rq h2 r HH HR WR. destruct (enter_bulk x h1 c h2 r HC BE L HH) as [_ X]. specialize (X HR WR).
    destruct (starts_kept _ _ _ _ _ _ A SA) as (LX & SX & _ & BX).
    rewrite push_loop in X by (rewrite LX; auto). eapply header_one; [exact A|exact SA|]. rewrite X.
    unfold elem, set_loops. rewrite <- T, <- BX. reflexivity.
  Qed.
End Arr.

Lemma bulk_encode {H1 H2} (host1 : H1 -> request -> H1 * reply) (host2 : H2 -> request -> H2 * reply) lm bc :
  wf_bytes bc -> forall s h g c x h1 g1 t1 t2 d,
  array_starts host1 bc s h c x h1 t1 -> array_starts host2 bc s g c x g1 t2 ->
  sane s -> lenN (loops s) < 8 -> md x = Enc -> tr x = TNone ->
  0 < c < eof_mark -> byte_elements bc x -> cur x + c <= lenN (buf x) -> lenN d = c -> wf_bytes d ->
  let rq := ask (key_at bc x) 0x39 (PBuf (cur x) (sub (buf x) (cur x) c)) (HRaw c) in
  forall h2 r, host1 h1 rq = (h2, r) -> r_ok r = true -> r_bytes r = d ->
  forall (k : nat -> H2) q, host2 g1 rq = (k O, q) -> r_ok q = false -> r_bytes q = [] ->
  (forall i, (i < N.to_nat c)%nat -> exists r,
      host2 (k i) (ask (key_at bc x) (opcode_at bc x) (cvar 1 0) (HField (opcode_at bc x) TNone)) = (k (S i), r) /\
      r_ok r = true /\ answer 1 0 r = nthN d (N.of_nat i)) ->
  forall g2 r2, host2 (k (N.to_nat c)) (ask 0 0x38 PNone HNote) = (g2, r2) -> r_ok r2 = true ->
  exists s1 s2, reaches host1 lm bc s h s1 h2 /\ reaches host2 lm bc s g s2 g2 /\
    buf s1 = put (buf x) (cur x) d /\ cur s1 = cur x + c /\ boff s1 = 0 /\ ip s1 = ip x + 4 /\ loops s1 = loops s /\
    s2 = set_opt s1 false.
Proof.
  intros WB s h g c x h1 g1 t1 t2 d A1 A2 SA HL M T HC BE L LD WD rq h2 r HH HR HD k q HQ QR QB HE g2 r2 HN NR.
  pose proof A1 as SK. eapply starts_kept in SK; [|exact SA]. destruct SK as (LX & SX & _ & BX).
  pose proof (bulk_same host1 lm bc WB s h c x h1 t1 A1 SA ltac:(lia) BE L h2 r HH HR ltac:(now rewrite HD) ltac:(rewrite HD; lia)) as R1.
  pose proof (single_start host2 lm bc WB s g c x g1 t2 A2 SA HL ltac:(lia) BE L T _ q HQ QR QB) as R2.
  pose proof (elements_enc host2 lm bc WB x (loops x) d BE k (buf x) (cur x) (N.to_nat c) (opt x) M ltac:(lia) ltac:(lia) ltac:(lia) ltac:(lia) HE g2 r2 HN NR) as R3.
  rewrite !N2Nat.id in R3. rewrite HD in R1.
  do 2 eexists. split; [exact R1|]. split; [exact (reaches_trans _ _ _ _ _ _ _ _ _ R2 R3)|].
  repeat (split; [reflexivity || exact BX || exact LX|]). unfold set_opt, set_ip, set_cur, set_buf. cbn. rewrite <- BX, <- T. reflexivity.
Qed.
Lemma bulk_decode {H1 H2} (host1 : H1 -> request -> H1 * reply) (host2 : H2 -> request -> H2 * reply) lm bc :
  wf_bytes bc -> forall s h g c x h1 g1 t1 t2,
  array_starts host1 bc s h c x h1 t1 -> array_starts host2 bc s g c x g1 t2 ->
  sane s -> lenN (loops s) < 8 -> md x = Dec -> tr x = TNone ->
  0 < c < eof_mark -> byte_elements bc x -> cur x + c <= lenN (buf x) ->
  let d := sub (buf x) (cur x) c in let rq := ask (key_at bc x) 0x39 (PBuf (cur x) d) (HRaw c) in
  forall h2 r, host1 h1 rq = (h2, r) -> r_ok r = true -> r_bytes r = [] ->
  forall (k : nat -> H2) q, host2 g1 rq = (k O, q) -> r_ok q = false -> r_bytes q = [] ->
  (forall i, (i < N.to_nat c)%nat -> exists r,
      host2 (k i) (ask (key_at bc x) (opcode_at bc x) (cvar 1 (nthN d (N.of_nat i))) (HField (opcode_at bc x) TNone)) = (k (S i), r) /\
      r_ok r = true) ->
  forall g2 r2, host2 (k (N.to_nat c)) (ask 0 0x38 PNone HNote) = (g2, r2) -> r_ok r2 = true ->
  exists s1 s2, reaches host1 lm bc s h s1 h2 /\ reaches host2 lm bc s g s2 g2 /\
    buf s1 = buf x /\ cur s1 = cur x + c /\ boff s1 = 0 /\ ip s1 = ip x + 4 /\ loops s1 = loops s /\
    s2 = set_opt s1 false.
Proof.
  intros WB s h g c x h1 g1 t1 t2 A1 A2 SA HL M T HC BE L d rq h2 r HH HR HD k q HQ QR QB HE g2 r2 HN NR.
  pose proof A1 as SK. eapply starts_kept in SK; [|exact SA]. destruct SK as (LX & SX & _ & BX).
  pose proof (bulk_same host1 lm bc WB s h c x h1 t1 A1 SA ltac:(lia) BE L h2 r HH HR ltac:(rewrite HD; constructor) ltac:(rewrite HD; cbn; lia)) as R1.
  pose proof (single_start host2 lm bc WB s g c x g1 t2 A2 SA HL ltac:(lia) BE L T _ q HQ QR QB) as R2.
  assert (HE' : forall i, (i < N.to_nat c)%nat -> exists r,
      host2 (k i) (ask (key_at bc x) (opcode_at bc x) (cvar 1 (nthN (buf x) (cur x + N.of_nat i))) (HField (opcode_at bc x) TNone)) = (k (S i), r) /\
      r_ok r = true).
  { intros i Hi. destruct (HE i Hi) as (ri & X1 & X2). exists ri. split; auto. unfold d in X1. rewrite nthN_sub in X1 by lia. exact X1. }
  pose proof (elements_dec host2 lm bc WB x (loops x) (buf x) BE ltac:(apply SX) k (cur x) (N.to_nat c) (opt x) M ltac:(lia) ltac:(lia) ltac:(lia) HE' g2 r2 HN NR) as R3.
  rewrite !N2Nat.id in R3. rewrite HD, put_nil in R1 by lia.
  do 2 eexists. split; [exact R1|]. split; [exact (reaches_trans _ _ _ _ _ _ _ _ _ R2 R3)|].
  repeat (split; [reflexivity || exact BX || exact LX|]). unfold set_opt, set_ip, set_cur, set_buf. cbn. rewrite <- BX, <- T. reflexivity.
Qed.
