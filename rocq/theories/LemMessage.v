(** Running compiled packets of plain fields. *)
From Coq Require Import ZifyBool ZifyNat ZifyN.
From Verif Require Import Base SpecBytes LemBase ModelWord LemWord ModelFloat ModelTrans ModelVM SpecVM LemAct LemInstr LemField LemCheck LemStr LemArr
  SpecParse SpecNames SpecPacket SpecFlow SpecMessage LemFlow LemImage LemSend.
Ltac Zify.zify_post_hook ::= Z.div_mod_to_equations.

Lemma plays_app {H} (host : H -> request -> H * reply) t1 t2 h h' : plays host h (t1 ++ t2) h' -> exists h1, plays host h t1 h1 /\ plays host h1 t2 h'.
Proof.
  revert h. induction t1 as [|[rq r] t1 IH]; intros h P; [exists h; split; [constructor|exact P]|]. cbn [app] in P. inversion P as [|? ? ? h1 ? ? HH P']; subst.
  destruct (IH _ P') as (h2 & A & B). exists h2. split; [econstructor; eauto|exact B].
Qed.
Lemma plays_one {H} (host : H -> request -> H * reply) rq r h h' : plays host h [(rq, r)] h' -> host h rq = (h', r).
Proof. intros P. inversion P as [|? ? ? h1 ? ? HH P']; subst. inversion P'; subst. exact HH. Qed.

Lemma width_cases ty : 0x10 <= ty <= 0x1A ->
  (exists w sg, int_type ty = Some {| i_w := w; i_signed := sg |} /\ width ty = wbytes w /\ ty <> 0x1A) \/
  (exists d, classify ty = CFloat d /\ aligns ty = true /\ width ty = wbytes (f_width d) /\ ty <> 0x1A) \/ ty = 0x1A.
Proof.
  intros B. assert (ty = 16 \/ ty = 17 \/ ty = 18 \/ ty = 19 \/ ty = 20 \/ ty = 21 \/ ty = 22 \/ ty = 23 \/ ty = 24 \/ ty = 25 \/ ty = 26) as C by lia.
  repeat (destruct C as [-> | C]; [first [left; eexists _, _; split; [reflexivity|split; [reflexivity|discriminate]]|right; left; eexists; split; [reflexivity|split; [reflexivity|split; [reflexivity|discriminate]]]]|]).
  auto.
Qed.
Lemma width_pos ty : 0x10 <= ty <= 0x1A -> 0 < width ty <= 8.
Proof.
  intros B. assert (ty = 16 \/ ty = 17 \/ ty = 18 \/ ty = 19 \/ ty = 20 \/ ty = 21 \/ ty = 22 \/ ty = 23 \/ ty = 24 \/ ty = 25 \/ ty = 26) as C by lia.
  repeat (destruct C as [-> | C]; [cbn; lia|]). subst. cbn. lia.
Qed.
Lemma mod_pow n v : v < 2 ^ (8 * n) -> v mod 256 ^ N.of_nat (N.to_nat n) = v.
Proof. intros L. rewrite N2Nat.id. apply N.mod_small. rewrite N.pow_mul_r in L. exact L. Qed.
Lemma byte_self o v : v < 256 -> bytes_of o 1 v = [v].
Proof. intros L. unfold bytes_of. cbn [le_bytes]. rewrite N.mod_small by lia. now destruct o. Qed.
Lemma numbers_bytes o ty vs : byte_type ty -> Forall (number_ok ty) vs -> numbers o ty vs = vs.
Proof.
  intros BT F. unfold numbers. induction F as [|v vs (L & _) F IH]; [reflexivity|]. cbn [flat_map]. rewrite IH.
  destruct BT as [-> | ->]; change (N.to_nat (width _)) with 1%nat; rewrite byte_self; auto.
Qed.
Lemma numbers_len o ty vs : lenN (numbers o ty vs) = lenN vs * width ty.
Proof.
  unfold numbers. induction vs as [|v vs IH]; [reflexivity|]. cbn [flat_map]. rewrite lenN_app, lenN_bytes_of, IH, lenN_cons. lia.
Qed.
Lemma numbers_wf o ty vs : wf_bytes (numbers o ty vs).
Proof. unfold numbers. induction vs as [|v vs IH]; [constructor|]. cbn [flat_map]. apply wf_app; [apply wf_bytes_of|exact IH]. Qed.
Lemma skipn_add {A} a b (l : list A) : skipn a (skipn b l) = skipn (b + a) l.
Proof. revert l. induction b as [|b IH]; intros l; [reflexivity|]. destruct l; [now rewrite !skipn_nil|]. cbn [skipn Nat.add]. apply IH. Qed.
Lemma sub_skip a b n : sub (a ++ b) (lenN a) n = sub b 0 n.
Proof. unfold sub, lenN. rewrite Nat2N.id, skipn_app, skipn_all, Nat.sub_diag. reflexivity. Qed.

(** Where a run is: in byte mode without transform *)
Definition at_point (s : st) (m : mode) (o : endian) (q : N) (L : list (N * N)) (b : list N) (p : N) : Prop :=
  ready s m o q /\ loops s = L /\ buf s = b /\ cur s = p.
Lemma at_point_byte s m o q L b p : at_point s m o q L b p -> byte_pos s = p /\ boff s < 8.
Proof. intros ((A & B & C & D & E) & F & G & I). split; [rewrite byte_pos0 by exact C; exact I|lia]. Qed.
(** What remains after writing *)
Definition after (bs rest : list N) : list N := bs ++ skipn (N.to_nat (lenN bs)) rest.

Definition counter (w : N) : Prop := w = 1 \/ w = 2 \/ w = 4.
Definition content_wf (c : content) : Prop :=
  match c with
  | Scalar ty x => 0x10 <= ty <= 0x1A /\ match x with One => True | Fixed n => n < 2 ^ 32 | Counted w => counter w end
  | Text max => max < 2 ^ 16
  | CountedText w => counter w
  end.

Definition array (c : content) : Prop := match c with Scalar _ (Fixed _) | Scalar _ (Counted _) => True | _ => False end.

Section Run.
  Context {H : Type} (host : H -> request -> H * reply) (lm : libm) (bc : list N) (WB : wf_bytes bc).
  Notation steps := (steps host lm bc).

  (** ** One number *)
  Lemma float_enc s h h' r ty d : opcode_at bc s = ty -> classify ty = CFloat d -> aligns ty = true -> ip s + 3 <= lenN bc ->
    boff s < 8 -> md s = Enc -> tr s = TNone -> byte_pos s + wbytes (f_width d) <= lenN (buf s) ->
    let rq := ask (key_at bc s) ty (PInt (f_width d) 0) (HField ty TNone) in
    host h rq = (h', r) -> r_ok r = true ->
    interp host (step lm bc s) h = (SCont (stored s 3 (wbytes (f_width d)) (got (f_width d) 0 r)), h', [(rq, r)]).
  Proof.
    intros HO EC EA HI B M T HL rq HH HR. rewrite (step_at lm bc s ty) by (auto; lia). rewrite align_eq by auto. rewrite byte_pos_ip.
    unfold exec_op. rewrite EC. unfold io_float, io_scalar. cbn [ip set_ip set_boff set_cur tr md buf cur en lift]. rewrite key_eq by auto. cbn [lift].
    unfold dlen. cbn [ip set_ip set_boff set_cur tr md buf cur en opt].
    destruct (N.ltb_spec (lenN (buf s)) (byte_pos s + wbytes (f_width d))); [lia|]. rewrite M, T. cbn [f_eng_op eng_w f_to_wire].
    erewrite interp_call; [|exact HH|exact HR]. cbn [lift]. rewrite write_word_eq.
    destruct (N.leb_spec (byte_pos s + wbytes (f_width d)) (lenN (buf s))); [|lia]. cbn [lift interp]. rewrite nbytes_w. unfold stored. reflexivity.
  Qed.
  Lemma float_dec s h h' r ty d v : opcode_at bc s = ty -> classify ty = CFloat d -> aligns ty = true -> ip s + 3 <= lenN bc ->
    boff s < 8 -> md s = Dec -> tr s = TNone -> byte_pos s + wbytes (f_width d) <= lenN (buf s) -> wf_bytes (buf s) ->
    let rq := ask (key_at bc s) ty (PInt (f_width d) v) (HField ty TNone) in
    host h rq = (h', r) -> r_ok r = true -> val_of (en s) (sub (buf s) (byte_pos s) (wbytes (f_width d))) = v ->
    interp host (step lm bc s) h = (SCont (taken s 3 (wbytes (f_width d))), h', [(rq, r)]).
  Proof.
    intros HO EC EA HI B M T HL WF rq HH HR HV. rewrite (step_at lm bc s ty) by (auto; lia). rewrite align_eq by auto. rewrite byte_pos_ip.
    unfold exec_op. rewrite EC. unfold io_float, io_scalar. cbn [ip set_ip set_boff set_cur tr md buf cur en lift]. rewrite key_eq by auto. cbn [lift].
    unfold dlen. cbn [ip set_ip set_boff set_cur tr md buf cur en opt].
    destruct (N.ltb_spec (lenN (buf s)) (byte_pos s + wbytes (f_width d))); [lia|]. rewrite M, T. cbn [f_eng_op eng_w f_from_wire].
    rewrite read_word_eq by auto. destruct (N.leb_spec (byte_pos s + wbytes (f_width d)) (lenN (buf s))); [|lia]. cbn [lift]. rewrite HV.
    erewrite interp_call; [|exact HH|exact HR]. cbn [interp]. unfold taken. reflexivity.
  Qed.

  Lemma scalar_enc q ty k s h h1 r o L pre rest : placed bc q (code [ins ty [k] []]) -> 0x10 <= ty <= 0x1A -> k < 65536 ->
    at_point s Enc o q L (pre ++ rest) (lenN pre) -> width ty <= lenN rest -> host h (value_call k ty 0) = (h1, r) -> r_ok r = true ->
    (ty = 0x1A -> answer (width ty) 0 r <= 1) ->
    exists s', steps 1 s h s' h1 [(value_call k ty 0, r)] /\
      at_point s' Enc o (q + 3) L (pre ++ after (bytes_of o (N.to_nat (width ty)) (answer (width ty) 0 r)) rest) (lenN pre + width ty).
  Proof.
    intros P TY K AT LR HH HR BV. destruct (at_point_byte _ _ _ _ _ _ _ AT) as (BP & B8). destruct AT as ((R1 & R2 & R3 & R4 & R5) & A1 & A2 & A3).
    cbn [code flat_map instr_bytes opcode refs args ins app] in P. rewrite app_nil_r in P.
    destruct (placed_key bc q ty k _ P K s R5) as (HO & HK & HI).
    assert (LB : byte_pos s + width ty <= lenN (buf s)) by (rewrite BP, A2, lenN_app; lia).
    assert (PF : forall l, lenN l = width ty -> put (buf s) (byte_pos s) l = pre ++ after l rest).
    { intros l LL. rewrite A2, BP, put_front by lia. reflexivity. }
    assert (FIN : forall s', stored s 3 (width ty) (answer (width ty) 0 r) = s' -> at_point s' Enc o (q + 3) L (pre ++ after (bytes_of o (N.to_nat (width ty)) (answer (width ty) 0 r)) rest) (lenN pre + width ty)).
    { intros s' <-. unfold stored, at_point, ready. cbn [md tr boff en ip loops buf cur]. rewrite R4, PF by (rewrite lenN_bytes_of; lia). rewrite R5, BP. repeat split; auto. }
    unfold value_call in *. destruct (width_cases ty TY) as [(w & sg & IT & EW & NB)|[(d & EC & EA & EW & NB)|EB]].
    - eexists. split; [|apply FIN; reflexivity]. apply steps_one; [lia|lia|]. rewrite EW in *. rewrite cvar_w in *.
      replace (ask k ty (PInt w 0) (HField ty TNone)) with (ask (key_at bc s) (eng_op ty (tr s)) (PInt (eng_w w (tr s)) 0) (HField ty (tr s))) in *
        by (rewrite HK, R2; reflexivity).
      apply (int_enc host lm bc WB s h h1 r ty {| i_w := w; i_signed := sg |}); auto. rewrite R2. cbn [to_wire eng_w i_w]. now rewrite answer_got.
    - eexists. split; [|apply FIN; reflexivity]. apply steps_one; [lia|lia|]. rewrite EW in *. rewrite cvar_w in *. rewrite <- HK in *.
      change (answer (wbytes (f_width d)) 0 r) with (got (f_width d) 0 r). apply float_enc; auto.
    - specialize (BV EB). rewrite EB in *. change (width 26) with 1 in *. rewrite <- HK in *.
      pose proof (bool_enc host lm bc WB s h h1 r ltac:(auto) B8 R1 HI LB HH HR) as X. cbv zeta in X.
      destruct (N.leb_spec (answer 1 0 r) 1); [|lia]. eexists. split; [apply steps_one; [lia|lia|exact X]|].
      unfold at_point, ready. cbn [md tr boff en ip loops buf cur set_opt set_cur set_buf set_ip set_boff].
      rewrite PF by reflexivity. change (N.to_nat 1) with 1%nat. rewrite byte_self by lia. rewrite R5, BP. repeat split; auto.
  Qed.
  Lemma scalar_dec q ty k s h h1 r o L pre rest v : placed bc q (code [ins ty [k] []]) -> 0x10 <= ty <= 0x1A -> k < 65536 ->
    let bs := bytes_of o (N.to_nat (width ty)) v in
    at_point s Dec o q L (pre ++ bs ++ rest) (lenN pre) -> wf_bytes (buf s) -> number_ok ty v ->
    host h (value_call k ty v) = (h1, r) -> r_ok r = true ->
    exists s', steps 1 s h s' h1 [(value_call k ty v, r)] /\
      at_point s' Dec o (q + 3) L (pre ++ bs ++ rest) (lenN pre + width ty).
  Proof.
    intros P TY K bs AT WF (VB & V1) HH HR. destruct (at_point_byte _ _ _ _ _ _ _ AT) as (BP & B8). destruct AT as ((R1 & R2 & R3 & R4 & R5) & A1 & A2 & A3).
    cbn [code flat_map instr_bytes opcode refs args ins app] in P. rewrite app_nil_r in P.
    destruct (placed_key bc q ty k _ P K s R5) as (HO & HK & HI).
    assert (LS : lenN bs = width ty) by (unfold bs; rewrite lenN_bytes_of; lia).
    assert (LB : byte_pos s + width ty <= lenN (buf s)) by (rewrite BP, A2, !lenN_app; lia).
    assert (SB : sub (buf s) (byte_pos s) (width ty) = bs) by (rewrite A2, BP, <- LS; apply sub_front).
    assert (VV : val_of (en s) (sub (buf s) (byte_pos s) (width ty)) = v).
    { rewrite SB. unfold bs. rewrite R4, val_bytes. now apply mod_pow. }
    assert (FIN : forall s', taken s 3 (width ty) = s' -> at_point s' Dec o (q + 3) L (pre ++ bs ++ rest) (lenN pre + width ty)).
    { intros s' <-. unfold taken, at_point, ready. cbn [md tr boff en ip loops buf cur]. rewrite R5, BP. repeat split; auto. }
    unfold value_call in *. destruct (width_cases ty TY) as [(w & sg & IT & EW & NB)|[(d & EC & EA & EW & NB)|EB]].
    - eexists. split; [|apply FIN; reflexivity]. apply steps_one; [lia|lia|]. rewrite EW in *. rewrite cvar_w in *.
      replace (ask k ty (PInt w v) (HField ty TNone)) with (ask (key_at bc s) (eng_op ty (tr s)) (PInt (eng_w w (tr s)) v) (HField ty (tr s))) in *
        by (rewrite HK, R2; reflexivity).
      apply (int_dec host lm bc WB s h h1 r ty {| i_w := w; i_signed := sg |}); auto. rewrite R2. cbn [from_wire eng_w i_w]. now rewrite VV.
    - eexists. split; [|apply FIN; reflexivity]. apply steps_one; [lia|lia|]. rewrite EW in *. rewrite cvar_w in *. rewrite <- HK in *. apply float_dec; auto.
    - specialize (V1 EB). rewrite EB in *. change (width 26) with 1 in *. rewrite <- HK in *.
      assert (NV : nthN (buf s) (byte_pos s) = v).
      { unfold bs in SB. rewrite ?EB in SB. change (N.to_nat (width 26)) with 1%nat in SB. rewrite byte_self in SB by lia. pose proof (nthN_sub (buf s) (byte_pos s) 1 0 ltac:(lia)) as X.
        rewrite SB, N.add_0_r in X. symmetry. exact X. }
      destruct (bool_dec host lm bc WB s h ltac:(auto) B8 R1 HI LB) as (_ & X). rewrite NV in X. specialize (X V1 h1 r HH). rewrite HR in X.
      eexists. split; [apply steps_one; [lia|lia|exact X]|].
      unfold at_point, ready. cbn [md tr boff en ip loops buf cur set_opt set_cur set_buf set_ip set_boff]. rewrite R5, BP. repeat split; auto.
  Qed.

  (** ** Elements one by one *)
  Lemma after_two a b rest : (a ++ after b (skipn (N.to_nat (lenN a)) rest)) = after (a ++ b) rest.
  Proof. unfold after. rewrite <- app_assoc. f_equal. f_equal. rewrite skipn_add. f_equal. rewrite lenN_app. lia. Qed.
  Lemma end_steps_again s h b (left : N) o m L bf p : placed bc (b + 3) (code [ins 0x38 [] []]) -> 1 < left < eof_mark ->
    at_point s m o (b + 3) ((b, left) :: L) bf p ->
    exists s', steps 1 s h s' h [] /\ at_point s' m o b ((b, left - 1) :: L) bf p.
  Proof.
    intros P B AT. destruct (at_point_byte _ _ _ _ _ _ _ AT) as (BP & B8). destruct AT as ((R1 & R2 & R3 & R4 & R5) & A1 & A2 & A3).
    pose proof (placed_le _ _ _ P) as LE. change (lenN (code [ins 0x38 [] []])) with 1 in LE.
    change (code [ins 56 [] []]) with [0x38] in P. apply placed_one in P as (HO & _). rewrite <- R5 in HO.
    eexists. split; [apply steps_one; [lia|unfold opcode_at; lia|]; eapply end_again; eauto; lia|].
    unfold back, aligned, at_point, ready. cbn [md tr boff en ip loops buf cur set_ip set_loops set_boff set_cur]. rewrite ?BP. repeat split; auto.
  Qed.
  Lemma end_steps_last s h b o m L bf p h1 r : placed bc (b + 3) (code [ins 0x38 [] []]) ->
    at_point s m o (b + 3) ((b, 1) :: L) bf p -> host h end_call = (h1, r) -> r_ok r = true ->
    exists s', steps 1 s h s' h1 [(end_call, r)] /\ at_point s' m o (b + 4) L bf p.
  Proof.
    intros P AT HH HR. destruct (at_point_byte _ _ _ _ _ _ _ AT) as (BP & B8). destruct AT as ((R1 & R2 & R3 & R4 & R5) & A1 & A2 & A3).
    pose proof (placed_le _ _ _ P) as LE. change (lenN (code [ins 0x38 [] []])) with 1 in LE.
    change (code [ins 56 [] []]) with [0x38] in P. apply placed_one in P as (HO & _). rewrite <- R5 in HO.
    eexists. split; [apply steps_one; [lia|unfold opcode_at; lia|]; eapply end_last; eauto; lia|].
    unfold aligned, at_point, ready. cbn [md tr boff en ip loops buf cur set_ip set_loops set_boff set_cur]. rewrite ?BP. repeat split; auto. lia.
  Qed.
  Lemma element_code b ty k : placed bc b (code [ins ty [k] []; ins 0x38 [] []]) -> placed bc b (code [ins ty [k] []]) /\ placed bc (b + 3) (code [ins 0x38 [] []]).
  Proof.
    intros P. change (code [ins ty [k] []; ins 56 [] []]) with (code [ins ty [k] []] ++ code [ins 56 [] []]) in P. apply placed_app in P.
    change (lenN (code [ins ty [k] []])) with 3 in P. exact P.
  Qed.

  Lemma each_enc b ty k o L r : placed bc b (code [ins ty [k] []; ins 0x38 [] []]) -> 0x10 <= ty <= 0x1A -> k < 65536 -> r_ok r = true ->
    forall vs t, gives_each k ty vs t -> vs <> [] -> Forall (number_ok ty) vs -> lenN vs < eof_mark ->
    forall s h h' pre rest, at_point s Enc o b ((b, lenN vs) :: L) (pre ++ rest) (lenN pre) -> lenN vs * width ty <= lenN rest ->
    plays host h (t ++ [(end_call, r)]) h' ->
    exists n s', steps n s h s' h' (t ++ [(end_call, r)]) /\ at_point s' Enc o (b + 4) L (pre ++ after (numbers o ty vs) rest) (lenN pre + lenN vs * width ty).
  Proof.
    intros P TY K HR vs t G. induction G as [|v vs r1 t R1 V G IH]; intros NE F LE s h h' pre rest AT LR PL; [easy|]. clear NE.
    pose proof (Forall_inv F) as (VB & V1). apply Forall_inv_tail in F. cbn [app] in PL. inversion PL as [|? ? ? h1 ? ? HH PL']; subst.
    destruct (element_code _ _ _ P) as (P1 & P2). rewrite lenN_cons in *.
    destruct (scalar_enc b ty k s h h1 r1 o _ pre rest P1 TY K AT ltac:(lia) HH R1 V1) as (s1 & S1 & AT1).
    set (bs := bytes_of o (N.to_nat (width ty)) (answer (width ty) 0 r1)) in *. assert (LB : lenN bs = width ty) by (unfold bs; rewrite lenN_bytes_of; lia).
    unfold numbers. cbn [flat_map]. fold bs (numbers o ty vs).
    destruct vs as [|v2 vs].
    - inversion G; subst. change (lenN [] + 1) with 1 in *. apply plays_one in PL'. destruct (end_steps_last s1 h1 b o Enc L _ _ h' r P2 AT1 PL' HR) as (s2 & S2 & AT2).
      exists (1 + 1)%nat, s2. split; [apply (steps_trans _ _ _ _ _ _ _ _ _ _ _ _ _ S1 S2)|]. cbn [numbers flat_map]. rewrite app_nil_r. rewrite N.mul_1_l. exact AT2.
    - assert (L1 : 1 < lenN (v2 :: vs) + 1) by (rewrite lenN_cons; lia).
      destruct (end_steps_again s1 h1 b _ o Enc L _ _ P2 ltac:(split; [exact L1|exact LE]) AT1) as (s2 & S2 & AT2).
      replace (lenN (v2 :: vs) + 1 - 1) with (lenN (v2 :: vs)) in AT2 by lia. unfold after in AT2. rewrite app_assoc, LB in AT2.
      replace (lenN pre + width ty) with (lenN (pre ++ bs)) in AT2 by (rewrite lenN_app; lia).
      destruct (IH ltac:(discriminate) F ltac:(lia) s2 h1 h' _ _ AT2 ltac:(rewrite lenN_skipn; lia) PL') as (n & s3 & S3 & AT3).
      exists (1 + (1 + n))%nat, s3. split.
      + change (((value_call k ty 0, r1) :: t) ++ [(end_call, r)]) with ([(value_call k ty 0, r1)] ++ [] ++ t ++ [(end_call, r)]).
        eapply steps_trans; [exact S1|]. eapply steps_trans; [exact S2|exact S3].
      + rewrite <- app_assoc, <- LB, after_two in AT3. replace (lenN pre + (lenN (v2 :: vs) + 1) * width ty) with (lenN (pre ++ bs) + lenN (v2 :: vs) * width ty) by (rewrite lenN_app; lia).
        rewrite <- LB; exact AT3.
  Qed.
  Lemma each_dec b ty k o L r : placed bc b (code [ins ty [k] []; ins 0x38 [] []]) -> 0x10 <= ty <= 0x1A -> k < 65536 -> r_ok r = true ->
    forall vs t, told_each k ty vs t -> vs <> [] -> Forall (number_ok ty) vs -> lenN vs < eof_mark ->
    forall s h h' pre rest, at_point s Dec o b ((b, lenN vs) :: L) (pre ++ numbers o ty vs ++ rest) (lenN pre) -> wf_bytes (buf s) ->
    plays host h (t ++ [(end_call, r)]) h' ->
    exists n s', steps n s h s' h' (t ++ [(end_call, r)]) /\ at_point s' Dec o (b + 4) L (pre ++ numbers o ty vs ++ rest) (lenN pre + lenN vs * width ty).
  Proof.
    intros P TY K HR vs t G. induction G as [|v vs r1 t R1 G IH]; intros NE F LE s h h' pre rest AT WF PL; [easy|]. clear NE.
    pose proof (Forall_inv F) as VO. apply Forall_inv_tail in F. cbn [app] in PL. inversion PL as [|? ? ? h1 ? ? HH PL']; subst.
    destruct (element_code _ _ _ P) as (P1 & P2). rewrite lenN_cons in *. unfold numbers in AT |- *. cbn [flat_map] in AT |- *. fold (numbers o ty vs) in AT |- *. rewrite <- app_assoc in AT |- *.
    set (bs := bytes_of o (N.to_nat (width ty)) v) in *. assert (LB : lenN bs = width ty) by (unfold bs; rewrite lenN_bytes_of; lia).
    destruct (scalar_dec b ty k s h h1 r1 o _ pre (numbers o ty vs ++ rest) v P1 TY K AT WF VO HH R1) as (s1 & S1 & AT1). fold bs in AT1.
    destruct vs as [|v2 vs].
    - inversion G; subst. change (lenN [] + 1) with 1 in *. apply plays_one in PL'. destruct (end_steps_last s1 h1 b o Dec L _ _ h' r P2 AT1 PL' HR) as (s2 & S2 & AT2).
      exists (1 + 1)%nat, s2. split; [apply (steps_trans _ _ _ _ _ _ _ _ _ _ _ _ _ S1 S2)|]. rewrite N.mul_1_l. exact AT2.
    - assert (L1 : 1 < lenN (v2 :: vs) + 1) by (rewrite lenN_cons; lia).
      destruct (end_steps_again s1 h1 b _ o Dec L _ _ P2 ltac:(split; [exact L1|exact LE]) AT1) as (s2 & S2 & AT2).
      replace (lenN (v2 :: vs) + 1 - 1) with (lenN (v2 :: vs)) in AT2 by lia. rewrite app_assoc in AT2.
      replace (lenN pre + width ty) with (lenN (pre ++ bs)) in AT2 by (rewrite lenN_app; lia).
      assert (WF2 : wf_bytes (buf s2)).
      { destruct AT2 as (_ & _ & E2 & _). destruct AT as (_ & _ & E & _). rewrite E2, <- app_assoc, <- E. exact WF. }
      destruct (IH ltac:(discriminate) F ltac:(lia) s2 h1 h' _ _ AT2 WF2 PL') as (n & s3 & S3 & AT3).
      exists (1 + (1 + n))%nat, s3. split.
      + change (((value_call k ty v, r1) :: t) ++ [(end_call, r)]) with ([(value_call k ty v, r1)] ++ [] ++ t ++ [(end_call, r)]).
        eapply steps_trans; [exact S1|]. eapply steps_trans; [exact S2|exact S3].
      + rewrite <- app_assoc in AT3. replace (lenN pre + (lenN (v2 :: vs) + 1) * width ty) with (lenN (pre ++ bs) + lenN (v2 :: vs) * width ty) by (rewrite lenN_app; lia).
        exact AT3.
  Qed.

  (** ** Arrays after their header *)
  Lemma small_balanced ty k : 0x10 <= ty <= 0x1A -> k < 52 -> balanced (instr_bytes (ins ty [k] [])).
  Proof.
    intros TY K. unfold instr_bytes, ins. cbn [opcode refs args flat_map app le_bytes]. rewrite (N.mod_small k) by lia. rewrite (N.div_small k) by lia. change (0 mod 256) with 0.
    repeat (apply bal_byte; [unfold opens; cbn [In]; lia|lia|]). constructor.
  Qed.
  Lemma empty_body b ty k x h : placed bc b (code [ins ty [k] []; ins 0x38 [] []]) -> 0x10 <= ty <= 0x1A -> k < 52 -> ip x = b ->
    interp host (enter_array bc x 0) h = (SCont (set_ip x (b + 4)), h, []).
  Proof.
    intros P TY K E. destruct (element_code _ _ _ P) as (P1 & P2). pose proof (placed_le _ _ _ P2) as LE. change (lenN (code [ins 56 [] []])) with 1 in LE.
    pose proof (enter_zero host bc x h (instr_bytes (ins ty [k] [])) (small_balanced ty k TY K)) as X. change (lenN (instr_bytes (ins ty [k] []))) with 3 in X.
    rewrite E in X. replace (b + 3 + 1) with (b + 4) in X by lia. apply X; [|apply placed_one in P2 as (A & _); exact A|lia].
    change (code [ins ty [k] []]) with (instr_bytes (ins ty [k] []) ++ []) in P1. rewrite app_nil_r in P1. exact (proj1 P1).
  Qed.
  Lemma elements_are b ty k x : placed bc b (code [ins ty [k] []; ins 0x38 [] []]) -> ip x = b -> (byte_elements bc x <-> byte_type ty).
  Proof.
    intros P E. destruct (element_code _ _ _ P) as (P1 & P2). pose proof (placed_le _ _ _ P2) as LE. change (lenN (code [ins 56 [] []])) with 1 in LE.
    apply placed_one in P1 as (A & _). apply placed_one in P2 as (B & _). unfold byte_elements, byte_type. rewrite E, A. intuition lia.
  Qed.

  Lemma body_enc b ty k x h o L pre rest vs t h' : placed bc b (code [ins ty [k] []; ins 0x38 [] []]) -> 0x10 <= ty <= 0x1A -> k < 65536 -> (vs = [] -> k < 52) ->
    lenN L < 8 -> lenN vs < eof_mark -> Forall (number_ok ty) vs -> at_point x Enc o b L (pre ++ rest) (lenN pre) -> lenN vs * width ty <= lenN rest ->
    gives_all k ty (lenN pre) rest vs t -> plays host h t h' ->
    exists y h1 t1 n s' t2, t = t1 ++ t2 /\ interp host (enter_array bc x (lenN vs)) h = (SCont y, h1, t1) /\ steps n y h1 s' h' t2 /\
      at_point s' Enc o (b + 4) L (pre ++ after (numbers o ty vs) rest) (lenN pre + lenN vs * width ty).
  Proof.
    intros P TY K K0 LL LE F AT LR G PL. pose proof AT as ((R1 & R2 & R3 & R4 & R5) & A1 & A2 & A3). destruct G as [|vs t r NE NB G HR|vs r NE BT HR RB|vs r t r' NE BT HR RB G HR'].
    - inversion PL; subst. eexists _, _, [], 0%nat, _, []. split; [reflexivity|]. split; [eapply empty_body; eauto|]. split; [constructor|].
      unfold after. change (lenN (numbers _ ty [])) with 0. change (lenN []) with 0. rewrite N.mul_0_l, N.add_0_r. cbn [numbers flat_map app skipn N.to_nat].
      unfold at_point, ready. cbn [md tr boff en ip loops buf cur set_ip]. repeat split; auto.
    - assert (C : 0 < lenN vs) by (destruct vs; [easy|rewrite lenN_cons; lia]).
      destruct (each_enc b ty k o L r P TY K HR vs t G NE F LE (set_loops x ((b, lenN vs) :: L)) h h' pre rest) as (n & s' & S' & AT'); auto.
      { unfold at_point, ready. cbn [md tr boff en ip loops buf cur set_loops]. repeat split; auto. }
      eexists _, h, [], n, s', _. split; [reflexivity|]. split; [|split; [exact S'|exact AT']].
      rewrite enter_loop by (try (left; rewrite (elements_are b ty k x P R5)); auto). rewrite push_loop by (rewrite A1; exact LL). rewrite R5, A1. reflexivity.
    - assert (C : 0 < lenN vs) by (destruct vs; [easy|rewrite lenN_cons; lia]). apply plays_one in PL.
      assert (W1 : width ty = 1) by (destruct BT as [-> | ->]; reflexivity). rewrite W1, N.mul_1_r in *.
      pose proof (proj2 (elements_are b ty k x P R5) BT) as BE. destruct (element_code _ _ _ P) as (P1 & _).
      assert (KE : key_at bc x = k).
      { cbn [code flat_map instr_bytes opcode refs args ins app] in P1. rewrite app_nil_r in P1. destruct (placed_key bc b ty k _ P1 K x R5) as (_ & HK & _). exact HK. }
      assert (SE : sub (buf x) (cur x) (lenN vs) = sub rest 0 (lenN vs)) by (rewrite A2, A3; apply sub_skip).
      destruct (enter_bulk host bc WB x h (lenN vs) h' r C BE ltac:(rewrite A2, A3, lenN_app; lia)) as (X & _); [rewrite SE, KE, A3; exact PL|].
      specialize (X HR). rewrite SE, KE, A3 in X. eexists _, _, _, 0%nat, _, []. split; [symmetry; apply app_nil_r|]. split; [exact X|]. split; [constructor|].
      rewrite numbers_bytes by auto. rewrite RB. assert (WV : wf_bytes vs).
      { eapply Forall_impl; [|exact F]. intros v (VB & _). rewrite W1 in VB. exact VB. }
      rewrite map_small by auto. unfold cut, lenN at 1 2. rewrite Nat2N.id, firstn_all. rewrite A2, put_front by exact LR.
      unfold at_point, ready. cbn [md tr boff en ip loops buf cur set_ip set_cur set_buf]. rewrite R5. repeat split; auto.
    - assert (C : 0 < lenN vs) by (destruct vs; [easy|rewrite lenN_cons; lia]). inversion PL as [|? ? ? h1 ? ? HH PL']; subst.
      pose proof (proj2 (elements_are (ip x) ty k x P eq_refl) BT) as BE. destruct (element_code _ _ _ P) as (P1 & _).
      assert (KE : key_at bc x = k).
      { cbn [code flat_map instr_bytes opcode refs args ins app] in P1. rewrite app_nil_r in P1. destruct (placed_key bc (ip x) ty k _ P1 K x eq_refl) as (_ & HK & _). exact HK. }
      assert (W1 : width ty = 1) by (destruct BT as [-> | ->]; reflexivity).
      assert (SE : sub (buf x) (cur x) (lenN vs) = sub rest 0 (lenN vs)) by (rewrite A2, A3; apply sub_skip).
      destruct (enter_bulk host bc WB x h (lenN vs) h1 r C BE ltac:(rewrite A2, A3, lenN_app; lia)) as (_ & X); [rewrite SE, KE, A3; exact HH|].
      specialize (X HR RB). rewrite SE, KE, A3 in X. rewrite push_loop in X by exact LL.
      destruct (each_enc (ip x) ty k (en x) (loops x) r' P TY K HR' vs t G NE F LE (set_loops x ((ip x, lenN vs) :: loops x)) h1 h' pre rest) as (n & s' & S' & AT'); auto.
      { unfold at_point, ready. cbn [md tr boff en ip loops buf cur set_loops]. repeat split; auto. }
      eexists _, h1, [_], n, s', _. split; [reflexivity|]. split; [exact X|]. split; [exact S'|exact AT'].
  Qed.
  Lemma body_dec b ty k x h o L pre rest vs t h' : placed bc b (code [ins ty [k] []; ins 0x38 [] []]) -> 0x10 <= ty <= 0x1A -> k < 65536 -> (vs = [] -> k < 52) ->
    lenN L < 8 -> lenN vs < eof_mark -> Forall (number_ok ty) vs -> at_point x Dec o b L (pre ++ numbers o ty vs ++ rest) (lenN pre) -> wf_bytes (buf x) ->
    told_all k ty (lenN pre) vs t -> plays host h t h' ->
    exists y h1 t1 n s' t2, t = t1 ++ t2 /\ interp host (enter_array bc x (lenN vs)) h = (SCont y, h1, t1) /\ steps n y h1 s' h' t2 /\
      at_point s' Dec o (b + 4) L (pre ++ numbers o ty vs ++ rest) (lenN pre + lenN vs * width ty).
  Proof.
    intros P TY K K0 LL LE F AT WF G PL. pose proof AT as ((R1 & R2 & R3 & R4 & R5) & A1 & A2 & A3). destruct G as [|vs t r NE NB G HR|vs r NE BT HR RB|vs r t r' NE BT HR RB G HR'].
    - inversion PL; subst. eexists _, _, [], 0%nat, _, []. split; [reflexivity|]. split; [eapply empty_body; eauto|]. split; [constructor|].
      change (lenN []) with 0. rewrite N.mul_0_l, N.add_0_r.
      unfold at_point, ready. cbn [md tr boff en ip loops buf cur set_ip]. repeat split; auto.
    - assert (C : 0 < lenN vs) by (destruct vs; [easy|rewrite lenN_cons; lia]).
      destruct (each_dec b ty k o L r P TY K HR vs t G NE F LE (set_loops x ((b, lenN vs) :: L)) h h' pre rest) as (n & s' & S' & AT'); auto.
      { unfold at_point, ready. cbn [md tr boff en ip loops buf cur set_loops]. repeat split; auto. }
      eexists _, h, [], n, s', _. split; [reflexivity|]. split; [|split; [exact S'|exact AT']].
      rewrite enter_loop by (try (left; rewrite (elements_are b ty k x P R5)); auto). rewrite push_loop by (rewrite A1; exact LL). rewrite R5, A1. reflexivity.
    - assert (C : 0 < lenN vs) by (destruct vs; [easy|rewrite lenN_cons; lia]). apply plays_one in PL.
      assert (W1 : width ty = 1) by (destruct BT as [-> | ->]; reflexivity). rewrite W1, N.mul_1_r in *. rewrite numbers_bytes in * by auto.
      pose proof (proj2 (elements_are b ty k x P R5) BT) as BE. destruct (element_code _ _ _ P) as (P1 & _).
      assert (KE : key_at bc x = k).
      { cbn [code flat_map instr_bytes opcode refs args ins app] in P1. rewrite app_nil_r in P1. destruct (placed_key bc b ty k _ P1 K x R5) as (_ & HK & _). exact HK. }
      assert (SE : sub (buf x) (cur x) (lenN vs) = vs) by (rewrite A2, A3; apply sub_front).
      destruct (enter_bulk host bc WB x h (lenN vs) h' r C BE ltac:(rewrite A2, A3, !lenN_app; lia)) as (X & _); [rewrite SE, KE, A3; exact PL|].
      specialize (X HR). rewrite SE, KE, A3 in X. eexists _, _, _, 0%nat, _, []. split; [symmetry; apply app_nil_r|]. split; [exact X|]. split; [constructor|].
      rewrite RB. cbn [map]. unfold cut. rewrite firstn_nil, put_nil by (rewrite A2, lenN_app; lia).
      unfold at_point, ready. cbn [md tr boff en ip loops buf cur set_ip set_cur set_buf]. rewrite R5. repeat split; auto.
    - assert (C : 0 < lenN vs) by (destruct vs; [easy|rewrite lenN_cons; lia]). inversion PL as [|? ? ? h1 ? ? HH PL']; subst.
      pose proof (proj2 (elements_are (ip x) ty k x P eq_refl) BT) as BE. destruct (element_code _ _ _ P) as (P1 & _).
      assert (KE : key_at bc x = k).
      { cbn [code flat_map instr_bytes opcode refs args ins app] in P1. rewrite app_nil_r in P1. destruct (placed_key bc (ip x) ty k _ P1 K x eq_refl) as (_ & HK & _). exact HK. }
      assert (W1 : width ty = 1) by (destruct BT as [-> | ->]; reflexivity).
      assert (SE : sub (buf x) (cur x) (lenN vs) = vs) by (rewrite A2, A3, numbers_bytes by auto; apply sub_front).
      destruct (enter_bulk host bc WB x h (lenN vs) h1 r C BE ltac:(rewrite A2, A3, !lenN_app, numbers_len; lia)) as (_ & X); [rewrite SE, KE, A3; exact HH|].
      specialize (X HR RB). rewrite SE, KE, A3 in X. rewrite push_loop in X by exact LL.
      destruct (each_dec (ip x) ty k (en x) (loops x) r' P TY K HR' vs t G NE F LE (set_loops x ((ip x, lenN vs) :: loops x)) h1 h' pre rest) as (n & s' & S' & AT'); auto.
      { unfold at_point, ready. cbn [md tr boff en ip loops buf cur set_loops]. repeat split; auto. }
      eexists _, h1, [_], n, s', _. split; [reflexivity|]. split; [exact X|]. split; [exact S'|exact AT'].
  Qed.

  Lemma starts_op s h c x h1 t : array_starts host bc s h c x h1 t -> opcode_at bc s <> 0x41 /\ opcode_at bc s <> 0x4A.
  Proof. intros A. destruct A as [h1 r E|n h1 r E|n h1 r E|h1 r1 h2 r2 E]; try lia; split; intros X; rewrite X in E; discriminate. Qed.

  (** ** Whole fields *)
  Lemma code_cons i p : code (i :: p) = instr_bytes i ++ code p.
  Proof. reflexivity. Qed.
  Lemma fixed_header q ty k n s h h1 r m o L bf p : placed bc q (code (content_instrs (Scalar ty (Fixed n)) k)) -> k < 65536 -> n < 2 ^ 32 ->
    at_point s m o q L bf p -> host h (ask k 0x34 (cvar 4 n) HCount) = (h1, r) -> r_ok r = true -> answer 4 n r = n ->
    array_starts host bc s h n (aligned s 7) h1 [(ask k 0x34 (cvar 4 n) HCount, r)] /\ ip s < lenN bc /\
    placed bc (q + 7) (code [ins ty [k] []; ins 0x38 [] []]) /\ at_point (aligned s 7) m o (q + 7) L bf p.
  Proof.
    intros P K NB AT HH HR AN. destruct (at_point_byte _ _ _ _ _ _ _ AT) as (BP & B8). destruct AT as ((R1 & R2 & R3 & R4 & R5) & A1 & A2 & A3).
    cbn [content_instrs] in P. rewrite code_cons in P. apply placed_app in P as (P1 & P2). change (lenN (instr_bytes (ins 52 [k] (bytes_of LE 4 n)))) with 7 in P2.
    pose proof (placed_le _ _ _ P1) as QL. change (lenN (instr_bytes (ins 52 [k] (bytes_of LE 4 n)))) with 7 in QL.
    unfold instr_bytes, ins in P1. cbn [opcode refs args flat_map] in P1. rewrite app_nil_r in P1.
    destruct (placed_key bc q _ k _ P1 K s R5) as (HO & HK & _).
    assert (OE : operand_at bc s 3 4 = n).
    { apply placed_one in P1 as (_ & P1). apply placed_app in P1 as (_ & P1). change (lenN (le_bytes 2 k)) with 2 in P1. unfold operand_at. rewrite R5.
      replace (q + 3) with (q + 1 + 2) by lia. apply placed_val4; auto. }
    split; [|split; [lia|split; [exact P2|]]].
    - pose proof (starts_fixed host bc s h h1 r HO ltac:(lia)) as X. cbv zeta in X. rewrite HK, OE in X. specialize (X HH HR). rewrite AN in X. exact X.
    - unfold aligned, at_point, ready. cbn [md tr boff en ip loops buf cur set_ip set_boff set_cur]. rewrite BP, R5. repeat split; auto.
  Qed.
  Lemma array_op_bytes w : counter w -> count_bytes (array_op w) = Some w.
  Proof. intros [-> |[-> | ->]]; reflexivity. Qed.
  Lemma string_op_bytes w : counter w -> prefix_bytes (string_op w) = Some w.
  Proof. intros [-> |[-> | ->]]; reflexivity. Qed.
  Lemma counted_code q ty k w s : placed bc q (code (content_instrs (Scalar ty (Counted w)) k)) -> k < 65536 -> ip s = q ->
    opcode_at bc s = array_op w /\ key_at bc s = k /\ ip s + 3 <= lenN bc /\ placed bc (q + 3) (code [ins ty [k] []; ins 0x38 [] []]).
  Proof.
    intros P K R5. cbn [content_instrs] in P. rewrite code_cons in P. apply placed_app in P as (P1 & P2). change (lenN (instr_bytes (ins (array_op w) [k] []))) with 3 in P2.
    unfold instr_bytes, ins in P1. cbn [opcode refs args flat_map] in P1. rewrite !app_nil_r in P1.
    destruct (placed_key bc q _ k [] ltac:(rewrite app_nil_r; exact P1) K s R5) as (HO & HK & HI). auto.
  Qed.

  Lemma content_enc c k q s h o L pre rest d t h' : placed bc q (code (content_instrs c k)) -> content_wf c -> k < 65536 -> (d = Values [] -> k < 52) -> (array c -> lenN L < 8) ->
    at_point s Enc o q L (pre ++ rest) (lenN pre) -> wf_bytes (buf s) -> datum_ok c d -> lenN (datum_bytes o c d) <= lenN rest ->
    gives k (lenN pre) rest c d t -> plays host h t h' ->
    exists n s', steps n s h s' h' t /\ at_point s' Enc o (q + lenN (code (content_instrs c k))) L (pre ++ after (datum_bytes o c d) rest) (lenN pre + lenN (datum_bytes o c d)).
  Proof.
    intros P CW K K0 LL AT WF DO LR G PL. pose proof AT as ((R1 & R2 & R3 & R4 & R5) & A1 & A2 & A3). destruct (at_point_byte _ _ _ _ _ _ _ AT) as (BP & B8).
    destruct G as [ty v r HR AN|ty m vs r t HR AN G|ty w vs r t HR AN G|mx l r HR RS TX|w l r HR RS TX]; cbn [datum_bytes datum_ok content_wf] in *.
    - apply plays_one in PL. rewrite lenN_bytes_of in *. rewrite N2Nat.id in *. subst v. cbn [content_instrs] in *. change (lenN (code [ins ty [k] []])) with 3.
      destruct (scalar_enc q ty k s h h' r o L pre rest P (proj1 CW) K AT LR PL HR (proj2 DO)) as (s' & S' & AT'). exists 1%nat, s'. auto.
    - destruct CW as (TY & NB). destruct DO as (LV & QL & F). inversion PL as [|? ? ? h1 ? ? HH PL']; subst. rewrite numbers_len in *.
      destruct (fixed_header _ _ _ _ _ _ _ _ _ _ _ _ _ P K NB AT HH HR AN) as (AS & IL & PB & AT1).
      assert (K1 : vs = [] -> k < 52) by (intros ->; auto).
      destruct (body_enc _ ty k _ h1 _ _ pre rest vs t h' PB TY K K1 (LL Logic.I) QL F AT1 LR G PL') as (y & h2 & t1 & n & s' & t2 & ET & EN & S' & AT').
      exists (S n), s'. split.
      + rewrite ET. change ((?a, r) :: t1 ++ t2) with (((a, r) :: t1) ++ t2). apply (steps_more host lm bc n s h y h2 _ s' h' t2); [exact IL|eapply starts_op; eauto| |exact S'].
        change ((?a, r) :: t1) with ([(a, r)] ++ t1). eapply header_enters; eauto.
      + replace (ip s + 7 + 4) with (ip s + lenN (code (content_instrs (Scalar ty (Fixed (lenN vs))) k))) in AT' by (cbn [content_instrs]; change (lenN (code _)) with 11; lia).
        exact AT'.
    - destruct CW as (TY & CW). destruct DO as (LV & QL & F). inversion PL as [|? ? ? h1 ? ? HH PL']; subst. rewrite lenN_app, lenN_bytes_of, numbers_len, N2Nat.id in *.
      destruct (counted_code _ _ _ _ _ P K eq_refl) as (HO & HK & HI & PB).
      pose proof (starts_prefixed_enc host bc s h w h1 r) as AS. cbv zeta in AS. rewrite HO, HK, AN, BP in AS.
      specialize (AS (array_op_bytes w CW) HI R1 ltac:(rewrite A2, lenN_app; lia) HH HR). set (cb := bytes_of (en s) (N.to_nat w) (lenN vs)) in *.
      assert (LC : lenN cb = w) by (unfold cb; rewrite lenN_bytes_of; lia). rewrite A2, put_front in AS by lia. rewrite LC, app_assoc in AS.
      match type of AS with array_starts _ _ _ _ _ ?X _ _ => set (x := X) in * end.
      assert (AT1 : at_point x Enc (en s) (ip s + 3) (loops s) ((pre ++ cb) ++ skipn (N.to_nat w) rest) (lenN (pre ++ cb))).
      { unfold x, aligned, at_point, ready. cbn [md tr boff en ip loops buf cur set_ip set_boff set_cur set_buf]. rewrite lenN_app, LC. repeat split; auto. }
      assert (K1 : vs = [] -> k < 52) by (intros ->; auto).
      destruct (body_enc _ ty k _ h1 _ _ (pre ++ cb) (skipn (N.to_nat w) rest) vs t h' PB TY K K1 (LL Logic.I) QL F AT1) as (y & h2 & t1 & n & s' & t2 & ET & EN & S' & AT'); auto.
      { rewrite lenN_skipn. lia. }
      { rewrite lenN_app, LC. exact G. }
      exists (S n), s'. split.
      + rewrite ET. change ((?a, r) :: t1 ++ t2) with (((a, r) :: t1) ++ t2). apply (steps_more host lm bc n s h y h2 _ s' h' t2); [lia|eapply starts_op; eauto| |exact S'].
        change ((?a, r) :: t1) with ([(a, r)] ++ t1). eapply header_enters; eauto.
      + replace (ip s + 3 + 4) with (ip s + lenN (code (content_instrs (Scalar ty (Counted w)) k))) in AT' by (cbn [content_instrs]; change (lenN (code _)) with 7; lia).
        rewrite <- app_assoc in AT'. pose proof (after_two cb (numbers (en s) ty vs) rest) as AA. rewrite LC in AA. rewrite AA in AT'. rewrite lenN_app, LC, <- N.add_assoc in AT'. exact AT'.
    - apply plays_one in PL. cbn [content_instrs] in *. set (c := cut mx l) in *. rewrite lenN_app in *. change (lenN [0]) with 1 in *. change (lenN (code [ins 48 [k] (bytes_of LE 2 mx)])) with 5.
      pose proof (placed_le _ _ _ P) as QL. change (lenN (code [ins 48 [k] (bytes_of LE 2 mx)])) with 5 in QL.
      unfold code, instr_bytes, ins in P. cbn [opcode refs args flat_map] in P. rewrite !app_nil_r in P. destruct (placed_key bc q _ k _ P K s R5) as (HO & HK & HI).
      assert (OE : operand_at bc s 3 2 = mx).
      { apply placed_one in P as (_ & P). apply placed_app in P as (_ & P). change (lenN (le_bytes 2 k)) with 2 in P. unfold operand_at. rewrite R5.
        replace (q + 3) with (q + 1 + 2) by lia. apply placed_val2; auto. }
      pose proof (str_null_enc host lm bc WB s h h' r l HO B8 R1 ltac:(lia)) as X. cbv zeta in X. rewrite OE, HK in X. specialize (X PL HR RS TX). fold c in X.
      destruct (N.leb_spec (byte_pos s + lenN c + 1) (lenN (buf s))) as [_|J]; [|rewrite BP, A2, lenN_app in J; lia].
      eexists 1%nat, _. split; [apply steps_one; [lia|lia|exact X]|].
      unfold at_point, ready. cbn [md tr boff en ip loops buf cur set_opt set_ip set_cur set_buf set_boff]. rewrite A2, BP, R5, put_front by (rewrite lenN_app; exact LR).
      unfold after. repeat split; auto. lia.
    - apply plays_one in PL. cbn [content_instrs] in *. set (c := cut (2 ^ (8 * w) - 1) l) in *. rewrite lenN_app, lenN_bytes_of, N2Nat.id in *.
      change (lenN (code [ins (string_op w) [k] []])) with 3.
      cbn [code flat_map instr_bytes opcode refs args ins app] in P. rewrite app_nil_r in P. destruct (placed_key bc q _ k _ P K s R5) as (HO & HK & HI).
      pose proof (str_pre_enc host lm bc WB s h h' r l w) as X. cbv zeta in X. rewrite HO, HK in X. specialize (X (string_op_bytes w CW) B8 R1 HI PL HR RS TX). fold c in X.
      destruct (N.leb_spec (byte_pos s + w + lenN c) (lenN (buf s))) as [_|J]; [|rewrite BP, A2, lenN_app in J; lia].
      eexists 1%nat, _. split; [apply steps_one; [lia|rewrite HO; clear -CW; destruct CW as [-> |[-> | ->]]; split; discriminate|exact X]|].
      unfold at_point, ready. cbn [md tr boff en ip loops buf cur set_opt set_ip set_cur set_buf set_boff]. rewrite A2, BP, R4, R5, put_front by (rewrite lenN_app, lenN_bytes_of; lia).
      unfold after. repeat split; auto. lia.
  Qed.

  Lemma content_dec c k q s h o L pre rest d t h' : placed bc q (code (content_instrs c k)) -> content_wf c -> k < 65536 -> (d = Values [] -> k < 52) -> (array c -> lenN L < 8) ->
    at_point s Dec o q L (pre ++ datum_bytes o c d ++ rest) (lenN pre) -> wf_bytes (buf s) -> datum_ok c d ->
    told k (lenN pre) c d t -> plays host h t h' ->
    exists n s', steps n s h s' h' t /\ at_point s' Dec o (q + lenN (code (content_instrs c k))) L (pre ++ datum_bytes o c d ++ rest) (lenN pre + lenN (datum_bytes o c d)).
  Proof.
    intros P CW K K0 LL AT WF DO G PL. pose proof AT as ((R1 & R2 & R3 & R4 & R5) & A1 & A2 & A3). destruct (at_point_byte _ _ _ _ _ _ _ AT) as (BP & B8).
    destruct G as [ty v r HR|ty m vs r t HR AN G|ty w vs r t HR AN G|mx l r HR RB|w l r HR RB]; cbn [datum_bytes datum_ok content_wf] in *.
    - apply plays_one in PL. rewrite lenN_bytes_of, N2Nat.id. cbn [content_instrs] in *. change (lenN (code [ins ty [k] []])) with 3.
      destruct (scalar_dec q ty k s h h' r o L pre rest v P (proj1 CW) K AT WF DO PL HR) as (s' & S' & AT'). exists 1%nat, s'. auto.
    - destruct CW as (TY & NB). destruct DO as (LV & QL & F). inversion PL as [|? ? ? h1 ? ? HH PL']; subst. rewrite numbers_len.
      destruct (fixed_header _ _ _ _ _ _ _ _ _ _ _ _ _ P K NB AT HH HR AN) as (AS & IL & PB & AT1).
      assert (K1 : vs = [] -> k < 52) by (intros ->; auto).
      destruct (body_dec _ ty k _ h1 _ _ pre rest vs t h' PB TY K K1 (LL Logic.I) QL F AT1 WF G PL') as (y & h2 & t1 & n & s' & t2 & ET & EN & S' & AT').
      exists (S n), s'. split.
      + rewrite ET. change ((?a, r) :: t1 ++ t2) with (((a, r) :: t1) ++ t2). apply (steps_more host lm bc n s h y h2 _ s' h' t2); [exact IL|eapply starts_op; eauto| |exact S'].
        change ((?a, r) :: t1) with ([(a, r)] ++ t1). eapply header_enters; eauto.
      + replace (ip s + 7 + 4) with (ip s + lenN (code (content_instrs (Scalar ty (Fixed (lenN vs))) k))) in AT' by (cbn [content_instrs]; change (lenN (code _)) with 11; lia).
        exact AT'.
    - destruct CW as (TY & CW). destruct DO as (LV & QL & F). inversion PL as [|? ? ? h1 ? ? HH PL']; subst. rewrite lenN_app, lenN_bytes_of, numbers_len, N2Nat.id.
      destruct (counted_code _ _ _ _ _ P K eq_refl) as (HO & HK & HI & PB). rewrite <- app_assoc in *.
      set (cb := bytes_of (en s) (N.to_nat w) (lenN vs)) in *. assert (LC : lenN cb = w) by (unfold cb; rewrite lenN_bytes_of; lia).
      assert (VV : val_of (en s) (sub (buf s) (lenN pre) w) = lenN vs).
      { rewrite A2, <- LC, sub_front. unfold cb. rewrite val_bytes. now apply mod_pow. }
      pose proof (starts_prefixed_dec host bc s h w h1 r) as AS. cbv zeta in AS. rewrite HO, HK, BP, VV, AN in AS.
      specialize (AS (array_op_bytes w CW) HI R1 ltac:(rewrite A2, !lenN_app; lia) HH HR).
      match type of AS with array_starts _ _ _ _ _ ?X _ _ => set (x := X) in * end.
      assert (AT1 : at_point x Dec (en s) (ip s + 3) (loops s) ((pre ++ cb) ++ numbers (en s) ty vs ++ rest) (lenN (pre ++ cb))).
      { unfold x, aligned, at_point, ready. cbn [md tr boff en ip loops buf cur set_ip set_boff set_cur set_buf]. rewrite lenN_app, LC, <- app_assoc. repeat split; auto. }
      assert (K1 : vs = [] -> k < 52) by (intros ->; auto).
      destruct (body_dec _ ty k _ h1 _ _ (pre ++ cb) rest vs t h' PB TY K K1 (LL Logic.I) QL F AT1 WF) as (y & h2 & t1 & n & s' & t2 & ET & EN & S' & AT'); auto.
      { rewrite lenN_app, LC. exact G. }
      exists (S n), s'. split.
      + rewrite ET. change ((?a, r) :: t1 ++ t2) with (((a, r) :: t1) ++ t2). apply (steps_more host lm bc n s h y h2 _ s' h' t2); [lia|eapply starts_op; eauto| |exact S'].
        change ((?a, r) :: t1) with ([(a, r)] ++ t1). eapply header_enters; eauto.
      + replace (ip s + 3 + 4) with (ip s + lenN (code (content_instrs (Scalar ty (Counted w)) k))) in AT' by (cbn [content_instrs]; change (lenN (code _)) with 7; lia).
        rewrite <- app_assoc in AT'. rewrite lenN_app, LC, <- N.add_assoc in AT'. exact AT'.
    - apply plays_one in PL. cbn [content_instrs] in *. rewrite lenN_app. change (lenN [0]) with 1 in *. change (lenN (code [ins 48 [k] (bytes_of LE 2 mx)])) with 5.
      pose proof (placed_le _ _ _ P) as QL. change (lenN (code [ins 48 [k] (bytes_of LE 2 mx)])) with 5 in QL.
      unfold code, instr_bytes, ins in P. cbn [opcode refs args flat_map] in P. rewrite !app_nil_r in P. destruct (placed_key bc q _ k _ P K s R5) as (HO & HK & HI).
      assert (OE : operand_at bc s 3 2 = mx).
      { apply placed_one in P as (_ & P). apply placed_app in P as (_ & P). change (lenN (le_bytes 2 k)) with 2 in P. unfold operand_at. rewrite R5.
        replace (q + 3) with (q + 1 + 2) by lia. apply placed_val2; auto. }
      pose proof (str_null_dec host lm bc WB s h h' r l HO B8 R1 ltac:(lia)) as X. cbv zeta in X. rewrite OE, HK, BP in X.
      specialize (X (proj1 DO) (proj2 DO) ltac:(rewrite A2, !lenN_app; change (lenN [0]) with 1; lia)).
      assert (SE : sub (buf s) (lenN pre) (lenN l + 1) = l ++ [0]).
      { rewrite A2. replace (lenN l + 1) with (lenN (l ++ [0])) by (rewrite lenN_app; reflexivity). apply sub_front. }
      specialize (X SE PL HR RB).
      eexists 1%nat, _. split; [apply steps_one; [lia|lia|exact X]|].
      unfold at_point, ready. cbn [md tr boff en ip loops buf cur set_opt set_ip set_cur set_buf set_boff]. rewrite R5. repeat split; auto. lia.
    - apply plays_one in PL. cbn [content_instrs] in *. rewrite lenN_app, lenN_bytes_of, N2Nat.id.
      change (lenN (code [ins (string_op w) [k] []])) with 3.
      cbn [code flat_map instr_bytes opcode refs args ins app] in P. rewrite app_nil_r in P. destruct (placed_key bc q _ k _ P K s R5) as (HO & HK & HI).
      pose proof (str_pre_dec host lm bc WB s h h' r l w) as X. cbv zeta in X. rewrite HO, HK, BP, R4 in X. specialize (X (string_op_bytes w CW) B8 R1 HI WF ltac:(lia)).
      assert (LX : lenN (bytes_of o (N.to_nat w) (lenN l) ++ l) = w + lenN l) by (rewrite lenN_app, lenN_bytes_of; lia).
      specialize (X ltac:(rewrite A2; rewrite !lenN_app in *; lia)).
      assert (SE : sub (buf s) (lenN pre) (w + lenN l) = bytes_of o (N.to_nat w) (lenN l) ++ l) by (rewrite A2, <- LX; apply sub_front).
      specialize (X SE PL HR RB).
      eexists 1%nat, _. split; [apply steps_one; [lia|rewrite HO; clear -CW; destruct CW as [-> |[-> | ->]]; split; discriminate|exact X]|].
      unfold at_point, ready. cbn [md tr boff en ip loops buf cur set_opt set_ip set_cur set_buf set_boff]. rewrite R5. repeat split; auto. lia.
  Qed.
End Run.

(** ** All fields *)
Lemma datum_len o c d : lenN (datum_bytes o c d) = size c d.
Proof.
  unfold size, datum_bytes. destruct c as [ty [|m|w]|m|w], d as [v|vs|l]; rewrite ?lenN_app, ?lenN_bytes_of, ?numbers_len; reflexivity.
Qed.
Lemma datum_wf o c d : datum_ok c d -> wf_bytes (datum_bytes o c d).
Proof.
  intros D. destruct c as [ty [|m|w]|m|w], d as [v|vs|l]; cbn [datum_ok datum_bytes] in *; try easy; auto using wf_bytes_of, numbers_wf.
  - apply wf_app; [apply wf_bytes_of|apply numbers_wf].
  - apply wf_app; [apply text_wf; tauto|repeat constructor].
  - apply wf_app; [apply wf_bytes_of|tauto].
Qed.
Lemma wire_wf os fs : forall ds, Forall2 (fun f d => datum_ok (f_content f) d) fs ds -> wf_bytes (wire os fs ds).
Proof.
  revert fs. induction os as [|o os IH]; intros fs ds F; [constructor|]. destruct F as [|f d fs ds D F]; [constructor|]. cbn [wire]. apply wf_app; [now apply datum_wf|auto].
Qed.

Section Fields.
  Context {H : Type} (host : H -> request -> H * reply) (lm : libm) (bc : list N) (WB : wf_bytes bc).
  Notation steps := (steps host lm bc).

  Lemma order_point q (b : bool) s h m o L bf p : placed bc q (code [ins (if b then 0x02 else 0x01) [] []]) -> at_point s m o q L bf p ->
    exists s', steps 1 s h s' h [] /\ at_point s' m (if b then BE else LE) (q + 1) L bf p.
  Proof.
    intros P ((R1 & R2 & R3 & R4 & R5) & A1 & A2 & A3). pose proof (placed_le _ _ _ P) as QL. change (lenN (code [ins (if b then 2 else 1) [] []])) with 1 in QL.
    change (code [ins (if b then 2 else 1) [] []]) with [if b then 0x02 else 0x01] in P. apply placed_one in P as (HO & _).
    exists (set_en (set_ip s (ip s + 1)) (if b then BE else LE)). split.
    - apply steps_one; [lia| |].
      { unfold opcode_at. rewrite R5, HO. now destruct b. }
      apply byte_order; [lia|]. unfold opcode_at. rewrite R5, HO. now destruct b.
    - unfold at_point, ready. cbn [md tr boff en ip loops buf cur set_ip set_en]. rewrite R5. repeat split; auto.
  Qed.
  Lemma field_point q id f s h m o L bf p t h1 bf' p' : placed bc q (code (field_instrs id f)) -> at_point s m o q L bf p ->
    (forall q1 s1, placed bc q1 (code (content_instrs (f_content f) (id (f_name f)))) -> at_point s1 m (if f_big f then BE else o) q1 L bf p ->
       exists n s', steps n s1 h s' h1 t /\ at_point s' m (if f_big f then BE else o) (q1 + lenN (code (content_instrs (f_content f) (id (f_name f))))) L bf' p') ->
    exists n s', steps n s h s' h1 t /\ at_point s' m (if f_big f then LE else o) (q + lenN (code (field_instrs id f))) L bf' p'.
  Proof.
    intros P R X. unfold field_instrs in *. destruct (f_big f).
    - rewrite !code_app in P |- *. rewrite !lenN_app. apply placed_app in P as (P1 & P). apply placed_app in P as (P2 & P3).
      change (lenN (code [ins 2 [] []])) with 1 in *. change (lenN (code [ins 1 [] []])) with 1 in *.
      destruct (order_point q true s h m o L bf p P1 R) as (s1 & S1 & R1).
      destruct (X (q + 1) s1 P2 R1) as (n & s2 & S2 & R2).
      destruct (order_point _ false s2 h1 m BE L bf' p' P3 R2) as (s3 & S3 & R3).
      exists (1 + (n + 1))%nat, s3. split.
      + change t with ([] ++ t). rewrite <- (app_nil_r t). eapply steps_trans; [exact S1|]. eapply steps_trans; [exact S2|exact S3].
      + rewrite !N.add_assoc. exact R3.
    - cbn [app] in P |- *. rewrite app_nil_r in P |- *. exact (X q s P R).
  Qed.

  Lemma fields_enc id : forall pos old fs ds t, gives_fields id pos old fs ds t ->
    Forall (fun f => content_wf (f_content f)) fs -> Forall (fun f => id (f_name f) < 65536) fs -> (In (Values []) ds -> Forall (fun f => id (f_name f) < 52) fs) ->
    Forall2 (fun f d => datum_ok (f_content f) d) fs ds ->
    forall q s o L pre h h', placed bc q (code (flat_map (field_instrs id) fs)) -> lenN L < 8 -> at_point s Enc o q L (pre ++ old) pos -> lenN pre = pos ->
    wf_bytes (pre ++ old) -> let msg := wire (orders_from o fs) fs ds in lenN msg <= lenN old -> plays host h t h' ->
    exists n s' o', steps n s h s' h' t /\ at_point s' Enc o' (q + lenN (code (flat_map (field_instrs id) fs))) L (pre ++ after msg old) (pos + lenN msg).
  Proof.
    induction 1 as [pos old|pos old f fs d ds t1 t2 G GS IH]; intros FC FK FZ FD q s o L pre h h' P LL AT LP WF msg LR PL.
    - inversion PL; subst. exists 0%nat, s, o. split; [constructor|]. unfold msg, after. cbn [orders_from wire]. change (lenN []) with 0. rewrite N.add_0_r. cbn. rewrite N.add_0_r. exact AT.
    - pose proof (Forall_inv FC) as CW. apply Forall_inv_tail in FC. pose proof (Forall_inv FK) as K. apply Forall_inv_tail in FK.
      inversion FD as [|? ? ? ? DO FD']; subst. apply plays_app in PL as (h1 & PL1 & PL2). cbn [flat_map] in P |- *. rewrite code_app in P |- *. apply placed_app in P as (P1 & P2).
      set (m := if f_big f then BE else o). set (tl := wire (orders_from (if f_big f then LE else o) fs) fs ds) in *.
      assert (EM : msg = datum_bytes m (f_content f) d ++ tl) by (unfold msg, m, tl; cbn [orders_from]; destruct (f_big f); reflexivity).
      assert (LM : lenN msg = size (f_content f) d + lenN tl) by (rewrite EM, lenN_app, datum_len; lia).
      destruct (field_point q id f s h Enc o L (pre ++ old) (lenN pre) t1 h1 (pre ++ after (datum_bytes m (f_content f) d) old) (lenN pre + size (f_content f) d) P1 AT) as (n1 & s1 & S1 & AT1).
      { intros q1 s1 PP AA. fold m in AA |- *. rewrite <- (datum_len m). apply (content_enc host lm bc WB (f_content f) (id (f_name f)) q1 s1 h m L pre old d t1 h1); auto.
        - intros E. exact (Forall_inv (FZ (or_introl E))).
        - destruct AA as (_ & _ & -> & _). exact WF.
        - rewrite datum_len. lia. }
      destruct (IH FC FK ltac:(intros I; exact (Forall_inv_tail (FZ (or_intror I)))) FD' _ s1 (if f_big f then LE else o) L (pre ++ datum_bytes m (f_content f) d) h1 h' P2 LL) as (n2 & s2 & o' & S2 & AT2); auto.
      + unfold after in AT1. rewrite datum_len, app_assoc in AT1. exact AT1.
      + rewrite lenN_app, datum_len. reflexivity.
      + apply wf_app; [apply wf_app; [|apply datum_wf; exact DO]|].
        * clear - WF. unfold wf_bytes in *. apply Forall_app in WF. apply WF.
        * clear - WF. unfold wf_bytes in *. apply Forall_app in WF as (_ & W). rewrite <- (firstn_skipn (N.to_nat (size (f_content f) d)) old) in W. apply Forall_app in W. apply W.
      + fold tl. rewrite lenN_skipn. lia.
      + fold tl in AT2. exists (n1 + n2)%nat, s2, o'. split; [eapply steps_trans; eauto|]. rewrite lenN_app, N.add_assoc, LM, N.add_assoc.
        rewrite EM. rewrite <- after_two, datum_len. rewrite <- app_assoc in AT2. exact AT2.
  Qed.
  Lemma fields_dec id : forall pos fs ds t, told_fields id pos fs ds t ->
    Forall (fun f => content_wf (f_content f)) fs -> Forall (fun f => id (f_name f) < 65536) fs -> (In (Values []) ds -> Forall (fun f => id (f_name f) < 52) fs) ->
    Forall2 (fun f d => datum_ok (f_content f) d) fs ds ->
    forall q s o L pre rest h h', placed bc q (code (flat_map (field_instrs id) fs)) -> lenN L < 8 ->
    let msg := wire (orders_from o fs) fs ds in at_point s Dec o q L (pre ++ msg ++ rest) pos -> lenN pre = pos ->
    wf_bytes (buf s) -> plays host h t h' ->
    exists n s' o', steps n s h s' h' t /\ at_point s' Dec o' (q + lenN (code (flat_map (field_instrs id) fs))) L (pre ++ msg ++ rest) (pos + lenN msg).
  Proof.
    induction 1 as [pos|pos f fs d ds t1 t2 G GS IH]; intros FC FK FZ FD q s o L pre rest h h' P LL msg AT LP WF PL.
    - inversion PL; subst. exists 0%nat, s, o. split; [constructor|]. unfold msg in *. cbn [orders_from wire] in *. change (lenN []) with 0. rewrite N.add_0_r. cbn. rewrite N.add_0_r. exact AT.
    - pose proof (Forall_inv FC) as CW. apply Forall_inv_tail in FC. pose proof (Forall_inv FK) as K. apply Forall_inv_tail in FK.
      inversion FD as [|? ? ? ? DO FD']; subst. apply plays_app in PL as (h1 & PL1 & PL2). cbn [flat_map] in P |- *. rewrite code_app in P |- *. apply placed_app in P as (P1 & P2).
      set (m := if f_big f then BE else o). set (tl := wire (orders_from (if f_big f then LE else o) fs) fs ds) in *.
      assert (EM : msg = datum_bytes m (f_content f) d ++ tl) by (unfold msg, m, tl; cbn [orders_from]; destruct (f_big f); reflexivity).
      assert (LM : lenN msg = size (f_content f) d + lenN tl) by (rewrite EM, lenN_app, datum_len; lia).
      destruct (field_point q id f s h Dec o L (pre ++ msg ++ rest) (lenN pre) t1 h1 (pre ++ msg ++ rest) (lenN pre + size (f_content f) d) P1 AT) as (n1 & s1 & S1 & AT1).
      { intros q1 s1 PP AA. fold m in AA |- *. rewrite <- (datum_len m). rewrite EM, <- app_assoc in AA |- *. apply (content_dec host lm bc WB (f_content f) (id (f_name f)) q1 s1 h m L pre (tl ++ rest) d t1 h1); auto.
        - intros E. exact (Forall_inv (FZ (or_introl E))).
        - destruct AA as (_ & _ & -> & _). destruct AT as (_ & _ & E & _). rewrite E, EM, <- app_assoc in WF. exact WF. }
      destruct (IH FC FK ltac:(intros I; exact (Forall_inv_tail (FZ (or_intror I)))) FD' _ s1 (if f_big f then LE else o) L (pre ++ datum_bytes m (f_content f) d) rest h1 h' P2 LL) as (n2 & s2 & o' & S2 & AT2); auto.
      + fold tl. rewrite EM, <- !app_assoc in AT1. rewrite <- app_assoc. exact AT1.
      + rewrite lenN_app, datum_len. reflexivity.
      + destruct AT1 as (_ & _ & -> & _). destruct AT as (_ & _ & E & _). now rewrite <- E.
      + fold tl in AT2. exists (n1 + n2)%nat, s2, o'. split; [eapply steps_trans; eauto|]. rewrite lenN_app, N.add_assoc, LM, N.add_assoc.
        rewrite EM, <- app_assoc. rewrite <- app_assoc in AT2. exact AT2.
  Qed.
End Fields.

(** ** The whole packet *)
Lemma content_code_wf c k : content_wf c -> wf_bytes (code (content_instrs c k)).
Proof.
  intros W. apply code_wf. destruct c as [ty [|m|w]|m|w]; cbn [content_instrs content_wf] in *; repeat apply Forall_cons; try apply Forall_nil; cbn [ins opcode args];
    (split; [try lia|first [apply (wf_bytes_of LE)|constructor]]).
  - unfold array_op. destruct w as [|[[]|[]|]]; lia.
  - unfold string_op. destruct w as [|[[]|[]|]]; lia.
Qed.
Lemma plain_code_wf id k : Forall (fun f => content_wf (f_content f)) (pk_fields k) -> wf_bytes (code (packet_instrs id k)).
Proof.
  intros F. rewrite packet_code. apply wf_app; [|apply wf_app].
  - apply code_wf. apply Forall_forall. intros i I. apply in_map_iff in I as (b & <- & _). destruct b; (split; [reflexivity|constructor]).
  - apply code_wf. repeat constructor.
  - induction F as [|f fs W F IH]; [constructor|]. cbn [flat_map]. rewrite code_app. apply wf_app; [|exact IH]. unfold field_instrs. rewrite !code_app.
    repeat apply wf_app; [|now apply content_code_wf|]; (destruct (f_big f); [apply code_wf; repeat constructor|constructor]).
Qed.
Lemma counters w s : In (w, s) counter_words -> counter w.
Proof. intros I. unfold counter. cbn [counter_words In] in I. repeat (destruct I as [I|I]; [injection I; lia|]). easy. Qed.
Lemma types ty s : In (ty, s) type_words -> 0x10 <= ty <= 0x1A.
Proof. intros I. cbn [type_words In] in I. repeat (destruct I as [I|I]; [injection I; lia|]). easy. Qed.
Lemma read_wf c a b : content_read c a b -> content_wf c.
Proof. intros R. destruct R; cbn [content_wf]; eauto using counters, types; try (split; [eapply types; eauto|]; auto; eapply counters; eauto). lia. Qed.
Lemma fields_wf fs ws : fields_read fs ws -> Forall (fun f => content_wf (f_content f)) fs.
Proof. induction 1 as [|f l ws wr (os & a & b & _ & CR & _)]; constructor; auto. eapply read_wf; eauto. Qed.

Section Plain.
  Context {H : Type} (host : H -> request -> H * reply) (lm : libm) (id : list N -> N) (k : packet).
  Hypothesis FC : Forall (fun f => content_wf (f_content f)) (pk_fields k).
  Hypothesis FK : Forall (fun f => id (f_name f) < 65536) (pk_fields k).
  Let bc := code (packet_instrs id k).
  Let WB : wf_bytes bc := plain_code_wf id k FC.

  Lemma top_point os : forall q s h m o L bf p, placed bc q (code (map (fun b : bool => ins (if b then 0x02 else 0x01) [] []) os)) -> at_point s m o q L bf p ->
    exists n s', steps host lm bc n s h s' h [] /\ at_point s' m (last (map (fun b : bool => if b then BE else LE) os) o) (q + lenN os) L bf p.
  Proof.
    induction os as [|b os IH]; intros q s h m o L bf p P R.
    - exists 0%nat, s. split; [constructor|]. change (lenN []) with 0. rewrite N.add_0_r. exact R.
    - cbn [map] in P. change (ins (if b then 2 else 1) [] [] :: ?l) with ([ins (if b then 2 else 1) [] []] ++ l) in P. rewrite code_app in P.
      apply placed_app in P as (P1 & P2). change (lenN (code [ins (if b then 2 else 1) [] []])) with 1 in P2.
      destruct (order_point host lm bc q b s h m o L bf p P1 R) as (s1 & S1 & R1).
      destruct (IH (q + 1) s1 h m _ L bf p P2 R1) as (n & s2 & S2 & R2).
      exists (1 + n)%nat, s2. split; [change (@nil event) with (@nil event ++ []); eapply steps_trans; eauto|].
      rewrite lenN_cons. replace (q + (lenN os + 1)) with (q + 1 + lenN os) by lia.
      replace (last (map (fun b : bool => if b then BE else LE) (b :: os)) o) with (last (map (fun b : bool => if b then BE else LE) os) (if b then BE else LE)); [exact R2|].
      destruct os as [|b' os]; [reflexivity|]. cbn [map]. clear. revert b'. induction os as [|c os IH]; intros b'; [reflexivity|]. cbn [map last] in *. apply IH.
  Qed.
  Lemma name_point q n s h m o L bf p : placed bc q (code [ins 0x07 [n] []]) -> at_point s m o q L bf p ->
    exists s', steps host lm bc 1 s h s' h [] /\ at_point s' m o (q + 3) L bf p.
  Proof.
    intros P ((R1 & R2 & R3 & R4 & R5) & A1 & A2 & A3). pose proof (placed_le _ _ _ P) as QL. change (lenN (code [ins 7 [n] []])) with 3 in QL.
    cbn [code flat_map instr_bytes opcode refs args ins app] in P. apply placed_one in P as (HO & _). rewrite <- R5 in HO. change (opcode_at bc s = 0x07) in HO.
    exists (set_ip s (ip s + 3)). split.
    - apply steps_one; [lia|lia|]. enter_op HO. enter_args. rewrite key_eq by (auto; lia). reflexivity.
    - unfold at_point, ready. cbn [md tr boff en ip loops buf cur set_ip]. rewrite R5. repeat split; auto.
  Qed.
  Lemma plain_start m data h : exists n s1 q, steps host lm bc n (init m data) h s1 h [] /\ at_point s1 m (packet_order k) q [] data 0 /\
    placed bc q (code (flat_map (field_instrs id) (pk_fields k))) /\ lenN bc = q + lenN (code (flat_map (field_instrs id) (pk_fields k))).
  Proof.
    assert (P : placed bc 0 bc) by (apply placed_split; exists [], []; now rewrite app_nil_r). unfold bc in P at 2. rewrite packet_code in P.
    apply placed_app in P as (P1 & P). apply placed_app in P as (P2 & P3). rewrite orders_code_len in *. change (lenN (code [ins 7 [id (pk_name k)] []])) with 3 in P3.
    destruct (top_point (pk_orders k) 0 (init m data) h m LE [] data 0 P1 ltac:(repeat split)) as (n & s1 & S1 & R1).
    destruct (name_point _ _ s1 h m _ [] data 0 P2 R1) as (s2 & S2 & R2).
    exists (n + 1)%nat, s2, (0 + lenN (pk_orders k) + 3). split; [change (@nil event) with (@nil event ++ []); eapply steps_trans; eauto|].
    split; [unfold packet_order; rewrite <- last_orders; exact R2|]. split; [exact P3|].
    unfold bc. rewrite packet_code, !lenN_app, orders_code_len. change (lenN (code [ins 7 [id (pk_name k)] []])) with 3. lia.
  Qed.

  Lemma encode_steps data h ds t h' : gives_fields id 0 data (pk_fields k) ds t -> plays host h t h' ->
    (In (Values []) ds -> Forall (fun f => id (f_name f) < 52) (pk_fields k)) -> Forall2 (fun f d => datum_ok (f_content f) d) (pk_fields k) ds -> wf_bytes data ->
    let msg := wire (orders_from (packet_order k) (pk_fields k)) (pk_fields k) ds in lenN msg <= lenN data ->
    exists n s', steps host lm bc n (init Enc data) h s' h' t /\ lenN bc <= ip s' /\
      buf s' = msg ++ skipn (N.to_nat (lenN msg)) data /\ cur s' = lenN msg /\ boff s' = 0.
  Proof.
    intros G PL FZ FD WD msg L. destruct (plain_start Enc data h) as (n & s1 & q & S1 & AT & P & LB).
    destruct (fields_enc host lm bc WB id _ _ _ _ _ G FC FK FZ FD q s1 _ [] [] h h' P ltac:(cbn; lia) AT eq_refl WD L PL) as (n2 & s2 & o' & S2 & ((R1 & R2 & R3 & R4 & R5) & A1 & A2 & A3)).
    exists (n + n2)%nat, s2. split; [change t with ([] ++ t); eapply steps_trans; [exact S1|exact S2]|]. split; [rewrite R5; lia|]. split; [exact A2|].
    split; [rewrite A3; fold msg; lia|exact R3].
  Qed.
  Lemma decode_steps rest h ds t h' : told_fields id 0 (pk_fields k) ds t -> plays host h t h' ->
    (In (Values []) ds -> Forall (fun f => id (f_name f) < 52) (pk_fields k)) -> Forall2 (fun f d => datum_ok (f_content f) d) (pk_fields k) ds -> wf_bytes rest ->
    let msg := wire (orders_from (packet_order k) (pk_fields k)) (pk_fields k) ds in
    exists n s', steps host lm bc n (init Dec (msg ++ rest)) h s' h' t /\ lenN bc <= ip s' /\
      buf s' = msg ++ rest /\ cur s' = lenN msg /\ boff s' = 0.
  Proof.
    intros G PL FZ FD WD msg. destruct (plain_start Dec (msg ++ rest) h) as (n & s1 & q & S1 & AT & P & LB).
    assert (WF : wf_bytes (buf s1)). { destruct AT as (_ & _ & -> & _). apply wf_app; [now apply wire_wf|exact WD]. }
    destruct (fields_dec host lm bc WB id _ _ _ _ G FC FK FZ FD q s1 _ [] [] rest h h' P ltac:(cbn; lia) AT eq_refl WF PL) as (n2 & s2 & o' & S2 & ((R1 & R2 & R3 & R4 & R5) & A1 & A2 & A3)).
    exists (n + n2)%nat, s2. split; [change t with ([] ++ t); eapply steps_trans; [exact S1|exact S2]|]. split; [rewrite R5; lia|]. split; [exact A2|].
    split; [rewrite A3; fold msg; lia|exact R3].
  Qed.

  Lemma encode_plain data h ds t h' : gives_fields id 0 data (pk_fields k) ds t -> plays host h t h' ->
    (In (Values []) ds -> Forall (fun f => id (f_name f) < 52) (pk_fields k)) -> Forall2 (fun f d => datum_ok (f_content f) d) (pk_fields k) ds -> wf_bytes data ->
    let msg := wire (orders_from (packet_order k) (pk_fields k)) (pk_fields k) ds in lenN msg <= lenN data ->
    exists s' n, (forall fuel, (n <= fuel)%nat -> run host lm bc fuel (init Enc data) h = (Done EOk s', h', t)) /\
      buf s' = msg ++ skipn (N.to_nat (lenN msg)) data /\ position s' = 8 * lenN msg.
  Proof.
    intros G PL FZ FD WD msg L. destruct (encode_steps data h ds t h' G PL FZ FD WD L) as (n & s' & S & IL & B & C & O).
    exists s', (Datatypes.S n). split; [intros fuel F; eapply steps_run; eauto|]. split; [exact B|]. unfold position. rewrite C, O. fold msg. lia.
  Qed.
  Lemma decode_plain rest h ds t h' : told_fields id 0 (pk_fields k) ds t -> plays host h t h' ->
    (In (Values []) ds -> Forall (fun f => id (f_name f) < 52) (pk_fields k)) -> Forall2 (fun f d => datum_ok (f_content f) d) (pk_fields k) ds -> wf_bytes rest ->
    let msg := wire (orders_from (packet_order k) (pk_fields k)) (pk_fields k) ds in
    exists s' n, (forall fuel, (n <= fuel)%nat -> run host lm bc fuel (init Dec (msg ++ rest)) h = (Done EOk s', h', t)) /\
      buf s' = msg ++ rest /\ position s' = 8 * lenN msg.
  Proof.
    intros G PL FZ FD WD msg. destruct (decode_steps rest h ds t h' G PL FZ FD WD) as (n & s' & S & IL & B & C & O).
    exists s', (Datatypes.S n). split; [intros fuel F; eapply steps_run; eauto|]. split; [exact B|]. unfold position. rewrite C, O. fold msg. lia.
  Qed.
End Plain.
