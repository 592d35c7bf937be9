(** Running compiled packets with counted arrays and arrays to the end of the message. *)
From Coq Require Import ZifyBool ZifyNat ZifyN.
From Verif Require Import Base SpecBytes LemBase ModelWord LemWord ModelFloat ModelTrans ModelVM SpecVM LemAct LemInstr LemField LemCheck LemStr LemArr
  SpecParse SpecNames SpecPacket SpecFlow SpecMessage LemFlow LemImage LemSend LemMessage SpecArrays.
Ltac Zify.zify_post_hook ::= Z.div_mod_to_equations.

Definition what_fits (w : what) : Prop := match w with Plain c => content_wf c | Listed _ ty | Rest ty => 0x10 <= ty <= 0x1A end.

Section Run.
  Context {H : Type} (host : H -> request -> H * reply) (lm : libm) (bc : list N) (WB : wf_bytes bc).
  Notation steps := (steps host lm bc).

  (** ** To the end of the message *)
  Lemma eof_steps_again s h b o m L bf p : placed bc (b + 3) (code [ins 0x38 [] []]) -> at_point s m o (b + 3) ((b, eof_mark) :: L) bf p -> p < lenN bf ->
    exists s', steps 1 s h s' h [] /\ at_point s' m o b ((b, eof_mark) :: L) bf p.
  Proof.
    intros P AT B. destruct (at_point_byte _ _ _ _ _ _ _ AT) as (BP & B8). destruct AT as ((R1 & R2 & R3 & R4 & R5) & A1 & A2 & A3).
    pose proof (placed_le _ _ _ P) as LE. change (lenN (code [ins 0x38 [] []])) with 1 in LE.
    change (code [ins 56 [] []]) with [0x38] in P. apply placed_one in P as (HO & _). rewrite <- R5 in HO.
    eexists. split; [apply steps_one; [lia|unfold opcode_at; lia|]; eapply eof_again; eauto; [lia|rewrite A2, BP; lia]|].
    unfold aligned, at_point, ready. cbn [md tr boff en ip loops buf cur set_ip set_loops set_boff set_cur]. rewrite ?BP. repeat split; auto.
  Qed.
  Lemma eof_steps_last s h b o m L bf p h1 r : placed bc (b + 3) (code [ins 0x38 [] []]) -> at_point s m o (b + 3) ((b, eof_mark) :: L) bf p -> lenN bf <= p ->
    host h end_call = (h1, r) -> r_ok r = true ->
    exists s', steps 1 s h s' h1 [(end_call, r)] /\ at_point s' m o (b + 4) L bf p.
  Proof.
    intros P AT B HH HR. destruct (at_point_byte _ _ _ _ _ _ _ AT) as (BP & B8). destruct AT as ((R1 & R2 & R3 & R4 & R5) & A1 & A2 & A3).
    pose proof (placed_le _ _ _ P) as LE. change (lenN (code [ins 0x38 [] []])) with 1 in LE.
    change (code [ins 56 [] []]) with [0x38] in P. apply placed_one in P as (HO & _). rewrite <- R5 in HO.
    eexists. split; [apply steps_one; [lia|unfold opcode_at; lia|]; eapply eof_last; eauto; [lia|rewrite A2, BP; lia]|].
    unfold aligned, at_point, ready. cbn [md tr boff en ip loops buf cur set_ip set_loops set_boff set_cur]. rewrite ?BP. repeat split; auto. lia.
  Qed.
  Lemma rest_enc b ty k o L r : placed bc b (code [ins ty [k] []; ins 0x38 [] []]) -> 0x10 <= ty <= 0x1A -> k < 65536 -> r_ok r = true ->
    forall vs t, gives_each k ty vs t -> vs <> [] -> Forall (number_ok ty) vs ->
    forall s h h' pre rest, at_point s Enc o b ((b, eof_mark) :: L) (pre ++ rest) (lenN pre) -> lenN vs * width ty = lenN rest ->
    plays host h (t ++ [(end_call, r)]) h' ->
    exists n s', steps n s h s' h' (t ++ [(end_call, r)]) /\ at_point s' Enc o (b + 4) L (pre ++ after (numbers o ty vs) rest) (lenN pre + lenN vs * width ty).
  Proof.
    intros P TY K HR vs t G. pose proof (width_pos ty TY) as WP. induction G as [|v vs r1 t R1 V G IH]; intros NE F s h h' pre rest AT LR PL; [easy|]. clear NE.
    pose proof (Forall_inv F) as (VB & V1). apply Forall_inv_tail in F. cbn [app] in PL. inversion PL as [|? ? ? h1 ? ? HH PL']; subst.
    destruct (element_code bc _ _ _ P) as (P1 & P2). rewrite lenN_cons in *.
    destruct (scalar_enc host lm bc WB b ty k s h h1 r1 o _ pre rest P1 TY K AT ltac:(nia) HH R1 V1) as (s1 & S1 & AT1).
    set (bs := bytes_of o (N.to_nat (width ty)) (answer (width ty) 0 r1)) in *. assert (LB : lenN bs = width ty) by (unfold bs; rewrite lenN_bytes_of; lia).
    assert (LA : lenN (pre ++ after bs rest) = lenN pre + lenN rest) by (unfold after; rewrite !lenN_app, lenN_skipn; nia).
    unfold numbers. cbn [flat_map]. fold bs (numbers o ty vs).
    destruct vs as [|v2 vs].
    - inversion G; subst. change (lenN [] + 1) with 1 in *. apply plays_one in PL'. destruct (eof_steps_last s1 h1 b o Enc L _ _ h' r P2 AT1 ltac:(lia) PL' HR) as (s2 & S2 & AT2).
      exists (1 + 1)%nat, s2. split; [apply (steps_trans _ _ _ _ _ _ _ _ _ _ _ _ _ S1 S2)|]. cbn [numbers flat_map]. rewrite app_nil_r. rewrite N.mul_1_l. exact AT2.
    - assert (L1 : 1 < lenN (v2 :: vs) + 1) by (rewrite lenN_cons; lia).
      destruct (eof_steps_again s1 h1 b o Enc L _ _ P2 AT1 ltac:(nia)) as (s2 & S2 & AT2).
      unfold after in AT2. rewrite app_assoc, LB in AT2.
      replace (lenN pre + width ty) with (lenN (pre ++ bs)) in AT2 by (rewrite lenN_app; lia).
      destruct (IH ltac:(discriminate) F s2 h1 h' _ _ AT2 ltac:(rewrite lenN_skipn; nia) PL') as (n & s3 & S3 & AT3).
      exists (1 + (1 + n))%nat, s3. split.
      + change (((value_call k ty 0, r1) :: t) ++ [(end_call, r)]) with ([(value_call k ty 0, r1)] ++ [] ++ t ++ [(end_call, r)]).
        eapply steps_trans; [exact S1|]. eapply steps_trans; [exact S2|exact S3].
      + rewrite <- app_assoc, <- LB, after_two in AT3. replace (lenN pre + (lenN (v2 :: vs) + 1) * width ty) with (lenN (pre ++ bs) + lenN (v2 :: vs) * width ty) by (rewrite lenN_app; nia).
        rewrite <- LB; exact AT3.
  Qed.
  Lemma rest_dec b ty k o L r : placed bc b (code [ins ty [k] []; ins 0x38 [] []]) -> 0x10 <= ty <= 0x1A -> k < 65536 -> r_ok r = true ->
    forall vs t, told_each k ty vs t -> vs <> [] -> Forall (number_ok ty) vs ->
    forall s h h' pre, at_point s Dec o b ((b, eof_mark) :: L) (pre ++ numbers o ty vs) (lenN pre) -> wf_bytes (buf s) ->
    plays host h (t ++ [(end_call, r)]) h' ->
    exists n s', steps n s h s' h' (t ++ [(end_call, r)]) /\ at_point s' Dec o (b + 4) L (pre ++ numbers o ty vs) (lenN pre + lenN vs * width ty).
  Proof.
    intros P TY K HR vs t G. pose proof (width_pos ty TY) as WP. induction G as [|v vs r1 t R1 G IH]; intros NE F s h h' pre AT WF PL; [easy|]. clear NE.
    pose proof (Forall_inv F) as VO. apply Forall_inv_tail in F. cbn [app] in PL. inversion PL as [|? ? ? h1 ? ? HH PL']; subst.
    destruct (element_code bc _ _ _ P) as (P1 & P2). rewrite lenN_cons in *. unfold numbers in AT |- *. cbn [flat_map] in AT |- *. fold (numbers o ty vs) in AT |- *.
    set (bs := bytes_of o (N.to_nat (width ty)) v) in *. assert (LB : lenN bs = width ty) by (unfold bs; rewrite lenN_bytes_of; lia).
    destruct (scalar_dec host lm bc WB b ty k s h h1 r1 o _ pre (numbers o ty vs) v P1 TY K AT WF VO HH R1) as (s1 & S1 & AT1). fold bs in AT1.
    assert (LA : lenN (pre ++ bs ++ numbers o ty vs) = lenN pre + width ty + lenN vs * width ty) by (rewrite !lenN_app, numbers_len; lia).
    destruct vs as [|v2 vs].
    - inversion G; subst. change (lenN [] + 1) with 1 in *. change (lenN []) with 0 in LA. apply plays_one in PL'. destruct (eof_steps_last s1 h1 b o Dec L _ _ h' r P2 AT1 ltac:(lia) PL' HR) as (s2 & S2 & AT2).
      exists (1 + 1)%nat, s2. split; [apply (steps_trans _ _ _ _ _ _ _ _ _ _ _ _ _ S1 S2)|]. rewrite N.mul_1_l. exact AT2.
    - assert (L1 : 0 < lenN (v2 :: vs)) by (rewrite lenN_cons; lia).
      destruct (eof_steps_again s1 h1 b o Dec L _ _ P2 AT1 ltac:(nia)) as (s2 & S2 & AT2).
      rewrite app_assoc in AT2.
      replace (lenN pre + width ty) with (lenN (pre ++ bs)) in AT2 by (rewrite lenN_app; lia).
      assert (WF2 : wf_bytes (buf s2)).
      { destruct AT2 as (_ & _ & E2 & _). destruct AT as (_ & _ & E & _). rewrite E2, <- app_assoc, <- E. exact WF. }
      destruct (IH ltac:(discriminate) F s2 h1 h' _ AT2 WF2 PL') as (n & s3 & S3 & AT3).
      exists (1 + (1 + n))%nat, s3. split.
      + change (((value_call k ty v, r1) :: t) ++ [(end_call, r)]) with ([(value_call k ty v, r1)] ++ [] ++ t ++ [(end_call, r)]).
        eapply steps_trans; [exact S1|]. eapply steps_trans; [exact S2|exact S3].
      + rewrite <- app_assoc in AT3. replace (lenN pre + (lenN (v2 :: vs) + 1) * width ty) with (lenN (pre ++ bs) + lenN (v2 :: vs) * width ty) by (rewrite lenN_app; nia).
        exact AT3.
  Qed.

  (** ** Headers *)
  Lemma rest_header q ty k s h m o L bf p : placed bc q (code [ins 0x3A [k] []; ins ty [k] []; ins 0x38 [] []]) -> k < 65536 -> at_point s m o q L bf p -> lenN L < 8 -> p < lenN bf ->
    exists s1, steps 1 s h s1 h [] /\ at_point s1 m o (q + 3) ((q + 3, eof_mark) :: L) bf p /\ placed bc (q + 3) (code [ins ty [k] []; ins 0x38 [] []]).
  Proof.
    intros P K AT LL LP. destruct (at_point_byte _ _ _ _ _ _ _ AT) as (BP & B8). destruct AT as ((R1 & R2 & R3 & R4 & R5) & A1 & A2 & A3).
    rewrite code_cons in P. apply placed_app in P as (P1 & P2). change (lenN (instr_bytes (ins 58 [k] []))) with 3 in P2.
    unfold instr_bytes, ins in P1. cbn [opcode refs args flat_map] in P1. rewrite !app_nil_r in P1.
    destruct (placed_key bc q _ k [] ltac:(rewrite app_nil_r; exact P1) K s R5) as (HO & _ & HI).
    eexists. split; [apply steps_one; [lia|rewrite HO; lia|]; apply eof_header; auto; [rewrite A1; exact LL|rewrite A2, BP; exact LP]|]. split; [|exact P2].
    unfold aligned, at_point, ready. cbn [md tr boff en ip loops buf cur set_ip set_loops set_boff set_cur]. rewrite BP, R5, A1. repeat split; auto.
  Qed.
  Lemma no_rest q ty k s h m o L bf p : placed bc q (code [ins 0x3A [k] []; ins ty [k] []; ins 0x38 [] []]) -> 0x10 <= ty <= 0x1A -> k < 52 -> at_point s m o q L bf p -> lenN L < 8 -> lenN bf <= p ->
    exists s1 L', steps 1 s h s1 h [] /\ at_point s1 m o (q + 7) L' bf p.
  Proof.
    intros P TY K AT LL LP. destruct (at_point_byte _ _ _ _ _ _ _ AT) as (BP & B8). destruct AT as ((R1 & R2 & R3 & R4 & R5) & A1 & A2 & A3).
    rewrite code_cons in P. apply placed_app in P as (P1 & P2). change (lenN (instr_bytes (ins 58 [k] []))) with 3 in P2.
    unfold instr_bytes, ins in P1. cbn [opcode refs args flat_map] in P1. rewrite !app_nil_r in P1.
    destruct (placed_key bc q _ k [] ltac:(rewrite app_nil_r; exact P1) ltac:(lia) s R5) as (HO & _ & HI).
    destruct (element_code bc _ _ _ P2) as (Q1 & Q2). pose proof (placed_le _ _ _ Q2) as LE. change (lenN (code [ins 56 [] []])) with 1 in LE.
    pose proof (eof_header_empty host lm bc WB s h (instr_bytes (ins ty [k] [])) HO B8 ltac:(rewrite A1; exact LL) ltac:(rewrite A2, BP; exact LP) (small_balanced ty k TY K)) as X.
    change (lenN (instr_bytes (ins ty [k] []))) with 3 in X. rewrite R5 in X.
    eexists _, _. split.
    - apply steps_one; [lia|rewrite HO; lia|]. apply X.
      + change (code [ins ty [k] []]) with (instr_bytes (ins ty [k] []) ++ []) in Q1. rewrite app_nil_r in Q1. exact (proj1 Q1).
      + change (code [ins 56 [] []]) with [0x38] in Q2. apply placed_one in Q2 as (A & _). replace (q + 3 + 3) with (q + 3 + 3) by lia. exact A.
      + lia.
    - unfold aligned, at_point, ready. cbn [md tr boff en ip loops buf cur set_ip set_loops set_boff set_cur]. rewrite BP, R5. repeat split; auto.
  Qed.
  Lemma listed_header q ty k rk n s h h1 h2 r1 r2 m o L bf p : placed bc q (code [ins 0x3B [k; rk] []; ins ty [k] []; ins 0x38 [] []]) -> k < 65536 -> rk < 65536 -> n < 2 ^ 32 ->
    at_point s m o q L bf p -> host h (ask rk 0x06 (cvar 8 0) HQuery) = (h1, r1) -> r_ok r1 = true -> answer 8 0 r1 = n ->
    host h1 (ask k 0x3B (cvar 4 n) HCount) = (h2, r2) -> r_ok r2 = true -> answer 4 n r2 = n ->
    array_starts host bc s h n (aligned s 5) h2 [(ask rk 0x06 (cvar 8 0) HQuery, r1); (ask k 0x3B (cvar 4 n) HCount, r2)] /\ ip s < lenN bc /\
    placed bc (q + 5) (code [ins ty [k] []; ins 0x38 [] []]) /\ at_point (aligned s 5) m o (q + 5) L bf p.
  Proof.
    intros P K RK NB AT H1 O1 AN1 H2 O2 AN2. destruct (at_point_byte _ _ _ _ _ _ _ AT) as (BP & B8). destruct AT as ((R1 & R2 & R3 & R4 & R5) & A1 & A2 & A3).
    rewrite code_cons in P. apply placed_app in P as (P1 & P2). change (lenN (instr_bytes (ins 59 [k; rk] []))) with 5 in P2.
    pose proof (placed_le _ _ _ P1) as QL. change (lenN (instr_bytes (ins 59 [k; rk] []))) with 5 in QL.
    unfold instr_bytes, ins in P1. cbn [opcode refs args flat_map] in P1. rewrite !app_nil_r in P1.
    destruct (placed_key bc q _ k _ P1 K s R5) as (HO & HK & _).
    assert (OE : operand_at bc s 3 2 = rk).
    { apply placed_one in P1 as (_ & P1). apply placed_app in P1 as (_ & P1). change (lenN (le_bytes 2 k)) with 2 in P1. unfold operand_at. rewrite R5.
      replace (q + 3) with (q + 1 + 2) by lia. apply placed_val2; auto. }
    split; [|split; [lia|split; [exact P2|]]].
    - pose proof (starts_dynamic host bc s h h1 r1 h2 r2 HO ltac:(lia)) as X. cbv zeta in X. rewrite HK, OE, AN1 in X. specialize (X H1 O1 NB H2 O2). rewrite AN2 in X. exact X.
    - unfold aligned, at_point, ready. cbn [md tr boff en ip loops buf cur set_ip set_boff set_cur]. rewrite BP, R5. repeat split; auto.
  Qed.

  (** ** One item *)
  Lemma what_enc id w k q s h o L pre rest d t h' : placed bc q (code (what_instrs id w k)) -> what_fits w -> k < 65536 ->
    (forall ref ty, w = Listed ref ty -> id ref < 65536) -> (d = Values [] -> k < 52) -> lenN L < 8 ->
    at_point s Enc o q L (pre ++ rest) (lenN pre) -> wf_bytes (buf s) -> item_ok w d -> lenN (item_bytes o w d) <= lenN rest ->
    ((exists ty, w = Rest ty) -> lenN (item_bytes o w d) = lenN rest) ->
    gives_item id k (lenN pre) rest w d t -> plays host h t h' ->
    exists n s' L', steps n s h s' h' t /\ at_point s' Enc o (q + lenN (code (what_instrs id w k))) L' (pre ++ after (item_bytes o w d) rest) (lenN pre + lenN (item_bytes o w d)) /\
      ((forall ty, w <> Rest ty) -> L' = L).
  Proof.
    intros P CW K KR K0 LL AT WF DO LR LE G PL. destruct G as [c d t G|ref ty vs r1 r2 t O1 AN1 O2 AN2 G|ty|ty vs r t NE G HR]; cbn [what_instrs what_fits item_ok item_bytes] in *.
    - destruct (content_enc host lm bc WB c k q s h o L pre rest d t h' P CW K K0 (fun _ => LL) AT WF DO LR G PL) as (n & s' & S' & AT'). exists n, s', L. auto.
    - destruct DO as (QL & F). inversion PL as [|? ? ? h1 ? ? HH1 PL1]; subst. inversion PL1 as [|? ? ? h2 ? ? HH2 PL2]; subst. rewrite numbers_len in *.
      destruct (listed_header _ _ _ _ (lenN vs) _ _ _ _ _ _ _ _ _ _ _ P K (KR _ _ eq_refl) ltac:(lia) AT HH1 O1 AN1 HH2 O2 AN2) as (AS & IL & PB & AT1).
      assert (K1 : vs = [] -> k < 52) by (intros ->; auto).
      destruct (body_enc host lm bc WB _ ty k _ h2 _ _ pre rest vs t h' PB CW K K1 LL ltac:(unfold eof_mark; lia) F AT1 LR G PL2) as (y & h3 & t1 & n & s' & t2 & ET & EN & S' & AT').
      destruct (at_point_byte _ _ _ _ _ _ _ AT) as (_ & B8). exists (S n), s', L. split; [|split; [|auto]].
      + rewrite ET. change ((?a, r1) :: (?b, r2) :: t1 ++ t2) with (((a, r1) :: (b, r2) :: t1) ++ t2). apply (steps_more host lm bc n s h y h3 _ s' h' t2); [exact IL|eapply starts_op; eauto| |exact S'].
        change ((?a, r1) :: (?b, r2) :: t1) with ([(a, r1); (b, r2)] ++ t1). eapply header_enters; eauto.
      + replace (q + 5 + 4) with (q + lenN (code [ins 59 [k; id ref] []; ins ty [k] []; ins 56 [] []])) in AT' by (change (lenN (code _)) with 9; lia).
        exact AT'.
    - inversion PL; subst. cbn [numbers flat_map] in *. change (lenN []) with 0 in *.
      destruct (no_rest q ty k s h' Enc o L _ _ P CW (K0 eq_refl) AT LL) as (s1 & L' & S1 & AT1); [rewrite lenN_app; rewrite <- (LE (ex_intro _ ty eq_refl)); lia|].
      exists 1%nat, s1, L'. split; [exact S1|]. split; [|intros X; destruct (X ty eq_refl)]. change (lenN (code _)) with 7. rewrite N.add_0_r. exact AT1.
    - rewrite numbers_len in *. assert (C : 0 < lenN vs) by (destruct vs; [easy|rewrite lenN_cons; lia]). pose proof (width_pos ty CW) as WP. specialize (LE (ex_intro _ ty eq_refl)).
      destruct (rest_header q ty k s h Enc o L _ _ P K AT LL ltac:(rewrite lenN_app; nia)) as (s1 & S1 & AT1 & PB).
      destruct (rest_enc _ ty k o L r PB CW K HR vs t G NE DO s1 h h' pre rest AT1 LE PL) as (n & s' & S' & AT').
      exists (1 + n)%nat, s', L. split; [change (t ++ [(end_call, r)]) with ([] ++ t ++ [(end_call, r)]); eapply steps_trans; eauto|]. split; [|auto].
      change (lenN (code _)) with 7. replace (q + 7) with (q + 3 + 4) by lia. exact AT'.
  Qed.
  Lemma what_dec id w k q s h o L pre rest d t h' : placed bc q (code (what_instrs id w k)) -> what_fits w -> k < 65536 ->
    (forall ref ty, w = Listed ref ty -> id ref < 65536) -> (d = Values [] -> k < 52) -> lenN L < 8 ->
    at_point s Dec o q L (pre ++ item_bytes o w d ++ rest) (lenN pre) -> wf_bytes (buf s) -> item_ok w d ->
    ((exists ty, w = Rest ty) -> rest = []) ->
    told_item id k (lenN pre) w d t -> plays host h t h' ->
    exists n s' L', steps n s h s' h' t /\ at_point s' Dec o (q + lenN (code (what_instrs id w k))) L' (pre ++ item_bytes o w d ++ rest) (lenN pre + lenN (item_bytes o w d)) /\
      ((forall ty, w <> Rest ty) -> L' = L).
  Proof.
    intros P CW K KR K0 LL AT WF DO LE G PL. destruct G as [c d t G|ref ty vs r1 r2 t O1 AN1 O2 AN2 G|ty|ty vs r t NE G HR]; cbn [what_instrs what_fits item_ok item_bytes] in *.
    - destruct (content_dec host lm bc WB c k q s h o L pre rest d t h' P CW K K0 (fun _ => LL) AT WF DO G PL) as (n & s' & S' & AT'). exists n, s', L. auto.
    - destruct DO as (QL & F). inversion PL as [|? ? ? h1 ? ? HH1 PL1]; subst. inversion PL1 as [|? ? ? h2 ? ? HH2 PL2]; subst. rewrite numbers_len in *.
      destruct (listed_header _ _ _ _ (lenN vs) _ _ _ _ _ _ _ _ _ _ _ P K (KR _ _ eq_refl) ltac:(lia) AT HH1 O1 AN1 HH2 O2 AN2) as (AS & IL & PB & AT1).
      assert (K1 : vs = [] -> k < 52) by (intros ->; auto).
      destruct (body_dec host lm bc WB _ ty k _ h2 _ _ pre rest vs t h' PB CW K K1 LL ltac:(unfold eof_mark; lia) F AT1) as (y & h3 & t1 & n & s' & t2 & ET & EN & S' & AT'); auto.
      destruct (at_point_byte _ _ _ _ _ _ _ AT) as (_ & B8). exists (S n), s', L. split; [|split; [|auto]].
      + rewrite ET. change ((?a, r1) :: (?b, r2) :: t1 ++ t2) with (((a, r1) :: (b, r2) :: t1) ++ t2). apply (steps_more host lm bc n s h y h3 _ s' h' t2); [exact IL|eapply starts_op; eauto| |exact S'].
        change ((?a, r1) :: (?b, r2) :: t1) with ([(a, r1); (b, r2)] ++ t1). eapply header_enters; eauto.
      + replace (q + 5 + 4) with (q + lenN (code [ins 59 [k; id ref] []; ins ty [k] []; ins 56 [] []])) in AT' by (change (lenN (code _)) with 9; lia).
        exact AT'.
    - inversion PL; subst. cbn [numbers flat_map app] in *. change (lenN []) with 0 in *. rewrite (LE (ex_intro _ ty eq_refl)) in *.
      destruct (no_rest q ty k s h' Dec o L _ _ P CW (K0 eq_refl) AT LL) as (s1 & L' & S1 & AT1); [rewrite app_nil_r; lia|].
      exists 1%nat, s1, L'. split; [exact S1|]. split; [|intros X; destruct (X ty eq_refl)]. change (lenN (code _)) with 7. rewrite N.add_0_r. exact AT1.
    - rewrite (LE (ex_intro _ ty eq_refl)) in *. rewrite app_nil_r in *. rewrite numbers_len in *. assert (C : 0 < lenN vs) by (destruct vs; [easy|rewrite lenN_cons; lia]). pose proof (width_pos ty CW) as WP.
      destruct (rest_header q ty k s h Dec o L _ _ P K AT LL ltac:(rewrite lenN_app, numbers_len; nia)) as (s1 & S1 & AT1 & PB).
      assert (WF1 : wf_bytes (buf s1)) by (destruct AT1 as (_ & _ & -> & _); destruct AT as (_ & _ & E & _); now rewrite <- E).
      destruct (rest_dec _ ty k o L r PB CW K HR vs t G NE DO s1 h h' pre AT1 WF1 PL) as (n & s' & S' & AT').
      exists (1 + n)%nat, s', L. split; [change (t ++ [(end_call, r)]) with ([] ++ t ++ [(end_call, r)]); eapply steps_trans; eauto|]. split; [|auto].
      change (lenN (code _)) with 7. replace (q + 7) with (q + 3 + 4) by lia. exact AT'.
  Qed.
End Run.

Lemma item_len o w d : lenN (item_bytes o w d) = item_size w d.
Proof.
  unfold item_size. destruct w as [c|ref ty|ty]; cbn [item_bytes]; [now rewrite !datum_len|destruct d; rewrite ?numbers_len; reflexivity..].
Qed.
Lemma item_wf o w d : item_ok w d -> wf_bytes (item_bytes o w d).
Proof.
  destruct w as [c|ref ty|ty]; cbn [item_ok item_bytes]; [apply datum_wf|destruct d; easy || (intros; apply numbers_wf)..].
Qed.
Lemma items_wf : forall is ds o, Forall2 (fun i d => item_ok (i_what i) d) is ds -> wf_bytes (items_bytes o is ds).
Proof.
  intros is ds o F. revert o. induction F as [|i d is ds DO F IH]; intros o; [constructor|]. cbn [items_bytes]. apply wf_app; [now apply item_wf|apply IH].
Qed.

Section Items.
  Context {H : Type} (host : H -> request -> H * reply) (lm : libm) (bc : list N) (WB : wf_bytes bc).
  Notation steps := (steps host lm bc).

  Lemma item_point q id i s h m o L bf p t h1 bf' p' (Q : list (N * N) -> Prop) : placed bc q (code (item_instrs id i)) -> at_point s m o q L bf p ->
    (forall q1 s1, placed bc q1 (code (what_instrs id (i_what i) (id (i_name i)))) -> at_point s1 m (if i_big i then BE else o) q1 L bf p ->
       exists n s' L', steps n s1 h s' h1 t /\ at_point s' m (if i_big i then BE else o) (q1 + lenN (code (what_instrs id (i_what i) (id (i_name i))))) L' bf' p' /\ Q L') ->
    exists n s' L', steps n s h s' h1 t /\ at_point s' m (if i_big i then LE else o) (q + lenN (code (item_instrs id i))) L' bf' p' /\ Q L'.
  Proof.
    intros P R X. unfold item_instrs in *. destruct (i_big i).
    - rewrite !code_app in P |- *. rewrite !lenN_app. apply placed_app in P as (P1 & P). apply placed_app in P as (P2 & P3).
      change (lenN (code [ins 2 [] []])) with 1 in *. change (lenN (code [ins 1 [] []])) with 1 in *.
      destruct (order_point host lm bc q true s h m o L bf p P1 R) as (s1 & S1 & R1).
      destruct (X (q + 1) s1 P2 R1) as (n & s2 & L' & S2 & R2 & QL).
      destruct (order_point host lm bc _ false s2 h1 m BE L' bf' p' P3 R2) as (s3 & S3 & R3).
      exists (1 + (n + 1))%nat, s3, L'. split; [|split; [|exact QL]].
      + change t with ([] ++ t). rewrite <- (app_nil_r t). eapply steps_trans; [exact S1|]. eapply steps_trans; [exact S2|exact S3].
      + rewrite !N.add_assoc. exact R3.
    - cbn [app] in P |- *. rewrite app_nil_r in P |- *. exact (X q s P R).
  Qed.

  Definition named_below (id : list N -> N) (b : N) (i : item) : Prop := forall n, In n (item_names i) -> id n < b.
  Lemma named_self id b i : named_below id b i -> id (i_name i) < b.
  Proof. intros X. apply X. unfold item_names. destruct (i_what i); cbn; auto. Qed.
  Lemma named_ref id b i ref ty : named_below id b i -> i_what i = Listed ref ty -> id ref < b.
  Proof. intros X E. apply X. unfold item_names. rewrite E. cbn; auto. Qed.
  Lemma not_rest i : (is_rest i -> False) -> forall ty, i_what i <> Rest ty.
  Proof. intros X ty E. apply X. now exists ty. Qed.
  Lemma rest_or i : is_rest i \/ (is_rest i -> False).
  Proof. unfold is_rest. destruct (i_what i) as [c|ref ty|ty]; [right; intros (x & ?); discriminate..|left; eauto]. Qed.

  Lemma items_enc id : forall pos old is ds t, gives_items id pos old is ds t ->
    Forall (fun i => what_fits (i_what i)) is -> Forall (named_below id 65536) is -> (In (Values []) ds -> Forall (named_below id 52) is) ->
    Forall2 (fun i d => item_ok (i_what i) d) is ds -> rest_last is ->
    forall q s o L pre h h', placed bc q (code (flat_map (item_instrs id) is)) -> lenN L < 8 -> at_point s Enc o q L (pre ++ old) pos -> lenN pre = pos ->
    wf_bytes (pre ++ old) -> let msg := items_bytes o is ds in lenN msg <= lenN old -> (has_rest is -> lenN msg = lenN old) -> plays host h t h' ->
    exists n s' o' L', steps n s h s' h' t /\ at_point s' Enc o' (q + lenN (code (flat_map (item_instrs id) is))) L' (pre ++ after msg old) (pos + lenN msg).
  Proof.
    induction 1 as [pos old|pos old i is d ds t1 t2 G GS IH]; intros FC FK FZ FD RL q s o L pre h h' P LL AT LP WF msg LR HF PL.
    - inversion PL; subst. exists 0%nat, s, o, L. split; [constructor|]. unfold msg, after. cbn [items_bytes]. change (lenN []) with 0. rewrite N.add_0_r. cbn. rewrite N.add_0_r. exact AT.
    - pose proof (Forall_inv FC) as CW. apply Forall_inv_tail in FC. pose proof (Forall_inv FK) as K. apply Forall_inv_tail in FK. destruct RL as (RN & RL).
      inversion FD as [|? ? ? ? DO FD']; subst. apply plays_app in PL as (h1 & PL1 & PL2). cbn [flat_map] in P |- *. rewrite code_app in P |- *. apply placed_app in P as (P1 & P2).
      set (m := if i_big i then BE else o). set (tl := items_bytes (if i_big i then LE else o) is ds) in *.
      assert (EM : msg = item_bytes m (i_what i) d ++ tl) by reflexivity.
      assert (LM : lenN msg = item_size (i_what i) d + lenN tl) by (rewrite EM, lenN_app, item_len; lia).
      assert (RE : is_rest i -> is = [] /\ lenN tl = 0).
      { intros R. pose proof (RN R) as E. split; [exact E|]. unfold tl. rewrite E. reflexivity. }
      destruct (item_point q id i s h Enc o L (pre ++ old) (lenN pre) t1 h1 (pre ++ after (item_bytes m (i_what i) d) old) (lenN pre + item_size (i_what i) d)
        (fun L' => (forall ty, i_what i <> Rest ty) -> L' = L) P1 AT) as (n1 & s1 & L1 & S1 & AT1 & QL).
      { intros q1 s1 PP AA. fold m in AA |- *. rewrite <- (item_len m). apply (what_enc host lm bc WB id (i_what i) (id (i_name i)) q1 s1 h m L pre old d t1 h1); auto.
        - now apply named_self.
        - intros ref ty E. eapply named_ref; eauto.
        - intros E. apply (named_self _ _ _ (Forall_inv (FZ (or_introl E)))).
        - destruct AA as (_ & _ & -> & _). exact WF.
        - rewrite item_len. lia.
        - intros R. destruct (RE R) as (_ & T0). rewrite item_len. rewrite <- HF by (now apply Exists_cons_hd). lia. }
      destruct (rest_or i) as [R|R].
      + destruct (RE R) as (E & T0). subst is. inversion GS; subst. inversion PL2; subst.
        exists n1, s1, (if i_big i then LE else o), L1. rewrite app_nil_r. split; [exact S1|]. cbn [flat_map]. rewrite lenN_app. change (lenN (code [])) with 0. rewrite N.add_0_r.
        rewrite LM, T0, N.add_0_r, EM. replace tl with (@nil N) by (now destruct tl). rewrite app_nil_r. exact AT1.
      + rewrite (QL (not_rest i R)) in *.
        destruct (IH FC FK ltac:(intros I; exact (Forall_inv_tail (FZ (or_intror I)))) FD' RL _ s1 (if i_big i then LE else o) L (pre ++ item_bytes m (i_what i) d) h1 h' P2 LL) as (n2 & s2 & o' & L' & S2 & AT2); auto.
        * unfold after in AT1. rewrite item_len, app_assoc in AT1. exact AT1.
        * rewrite lenN_app, item_len. reflexivity.
        * apply wf_app; [apply wf_app; [|apply item_wf; exact DO]|].
          -- clear - WF. unfold wf_bytes in *. apply Forall_app in WF. apply WF.
          -- clear - WF. unfold wf_bytes in *. apply Forall_app in WF as (_ & W). rewrite <- (firstn_skipn (N.to_nat (item_size (i_what i) d)) old) in W. apply Forall_app in W. apply W.
        * fold tl. rewrite lenN_skipn. lia.
        * intros HR. fold tl. rewrite lenN_skipn. rewrite <- HF by (now apply Exists_cons_tl). lia.
        * fold tl in AT2. exists (n1 + n2)%nat, s2, o', L'. split; [eapply steps_trans; eauto|]. rewrite lenN_app, N.add_assoc, LM, N.add_assoc.
          rewrite EM. rewrite <- after_two, item_len. rewrite <- app_assoc in AT2. exact AT2.
  Qed.
  Lemma items_dec id : forall pos is ds t, told_items id pos is ds t ->
    Forall (fun i => what_fits (i_what i)) is -> Forall (named_below id 65536) is -> (In (Values []) ds -> Forall (named_below id 52) is) ->
    Forall2 (fun i d => item_ok (i_what i) d) is ds -> rest_last is ->
    forall q s o L pre rest h h', placed bc q (code (flat_map (item_instrs id) is)) -> lenN L < 8 ->
    let msg := items_bytes o is ds in at_point s Dec o q L (pre ++ msg ++ rest) pos -> lenN pre = pos ->
    wf_bytes (buf s) -> (has_rest is -> rest = []) -> plays host h t h' ->
    exists n s' o' L', steps n s h s' h' t /\ at_point s' Dec o' (q + lenN (code (flat_map (item_instrs id) is))) L' (pre ++ msg ++ rest) (pos + lenN msg).
  Proof.
    induction 1 as [pos|pos i is d ds t1 t2 G GS IH]; intros FC FK FZ FD RL q s o L pre rest h h' P LL msg AT LP WF HF PL.
    - inversion PL; subst. exists 0%nat, s, o, L. split; [constructor|]. unfold msg in *. cbn [items_bytes] in *. change (lenN []) with 0. rewrite N.add_0_r. cbn. rewrite N.add_0_r. exact AT.
    - pose proof (Forall_inv FC) as CW. apply Forall_inv_tail in FC. pose proof (Forall_inv FK) as K. apply Forall_inv_tail in FK. destruct RL as (RN & RL).
      inversion FD as [|? ? ? ? DO FD']; subst. apply plays_app in PL as (h1 & PL1 & PL2). cbn [flat_map] in P |- *. rewrite code_app in P |- *. apply placed_app in P as (P1 & P2).
      set (m := if i_big i then BE else o). set (tl := items_bytes (if i_big i then LE else o) is ds) in *.
      assert (EM : msg = item_bytes m (i_what i) d ++ tl) by reflexivity.
      assert (LM : lenN msg = item_size (i_what i) d + lenN tl) by (rewrite EM, lenN_app, item_len; lia).
      assert (RE : is_rest i -> is = [] /\ tl = []).
      { intros R. pose proof (RN R) as E. split; [exact E|]. unfold tl. rewrite E. reflexivity. }
      destruct (item_point q id i s h Dec o L (pre ++ msg ++ rest) (lenN pre) t1 h1 (pre ++ msg ++ rest) (lenN pre + item_size (i_what i) d)
        (fun L' => (forall ty, i_what i <> Rest ty) -> L' = L) P1 AT) as (n1 & s1 & L1 & S1 & AT1 & QL).
      { intros q1 s1 PP AA. fold m in AA |- *. rewrite <- (item_len m). rewrite EM, <- app_assoc in AA |- *. apply (what_dec host lm bc WB id (i_what i) (id (i_name i)) q1 s1 h m L pre (tl ++ rest) d t1 h1); auto.
        - now apply named_self.
        - intros ref ty E. eapply named_ref; eauto.
        - intros E. apply (named_self _ _ _ (Forall_inv (FZ (or_introl E)))).
        - destruct AA as (_ & _ & -> & _). destruct AT as (_ & _ & E & _). rewrite E, EM, <- app_assoc in WF. exact WF.
        - intros R. destruct (RE R) as (_ & ->). apply HF. now apply Exists_cons_hd. }
      destruct (rest_or i) as [R|R].
      + destruct (RE R) as (E & T0). subst is. inversion GS; subst. inversion PL2; subst.
        exists n1, s1, (if i_big i then LE else o), L1. rewrite app_nil_r. split; [exact S1|]. cbn [flat_map]. rewrite lenN_app. change (lenN (code [])) with 0. rewrite N.add_0_r.
        rewrite LM, T0. change (lenN []) with 0. rewrite N.add_0_r. exact AT1.
      + rewrite (QL (not_rest i R)) in *.
        destruct (IH FC FK ltac:(intros I; exact (Forall_inv_tail (FZ (or_intror I)))) FD' RL _ s1 (if i_big i then LE else o) L (pre ++ item_bytes m (i_what i) d) rest h1 h' P2 LL) as (n2 & s2 & o' & L' & S2 & AT2); auto.
        * fold tl. rewrite EM, <- !app_assoc in AT1. rewrite <- app_assoc. exact AT1.
        * rewrite lenN_app, item_len. reflexivity.
        * destruct AT1 as (_ & _ & -> & _). destruct AT as (_ & _ & E & _). now rewrite <- E.
        * intros HR. apply HF. now apply Exists_cons_tl.
        * fold tl in AT2. exists (n1 + n2)%nat, s2, o', L'. split; [eapply steps_trans; eauto|]. rewrite lenN_app, N.add_assoc, LM, N.add_assoc.
          rewrite EM, <- app_assoc. rewrite <- app_assoc in AT2. exact AT2.
  Qed.

  Lemma top_orders os : forall q s h m o L bf p, placed bc q (code (map (fun b : bool => ins (if b then 0x02 else 0x01) [] []) os)) -> at_point s m o q L bf p ->
    exists n s', steps n s h s' h [] /\ at_point s' m (last (map (fun b : bool => if b then BE else LE) os) o) (q + lenN os) L bf p.
  Proof.
    induction os as [|b os IH]; intros q s h m o L bf p P R.
    - exists 0%nat, s. split; [constructor|]. change (lenN []) with 0. rewrite N.add_0_r. exact R.
    - cbn [map] in P. change (ins (if b then 2 else 1) [] [] :: ?l) with ([ins (if b then 2 else 1) [] []] ++ l) in P. rewrite code_app in P.
      apply placed_app in P as (P1 & P2). change (lenN (code [ins (if b then 2 else 1) [] []])) with 1 in P2.
      destruct (order_point host lm bc q b s h m o L bf p P1 R) as (s1 & S1 & R1).
      destruct (IH (q + 1) s1 h m _ L bf p P2 R1) as (n & s2 & S2 & R2).
      exists (1 + n)%nat, s2. split; [change (@nil event) with (@nil event ++ []); eapply steps_trans; eauto|].
      rewrite lenN_cons. replace (q + (lenN os + 1)) with (q + 1 + lenN os) by lia.
      replace (last (map (fun b : bool => if b then BE else LE) (b :: os)) o) with (last (map (fun b : bool => if b then BE else LE) os) (if b then BE else LE)); [exact R2|].
      destruct os as [|b' os]; [reflexivity|]. cbn [map]. clear. revert b'. induction os as [|c os IH]; intros b'; [reflexivity|]. cbn [map last] in *. apply IH.
  Qed.
  Lemma title_point q n s h m o L bf p : placed bc q (code [ins 0x07 [n] []]) -> at_point s m o q L bf p ->
    exists s', steps 1 s h s' h [] /\ at_point s' m o (q + 3) L bf p.
  Proof.
    intros P ((R1 & R2 & R3 & R4 & R5) & A1 & A2 & A3). pose proof (placed_le _ _ _ P) as QL. change (lenN (code [ins 7 [n] []])) with 3 in QL.
    cbn [code flat_map instr_bytes opcode refs args ins app] in P. apply placed_one in P as (HO & _). rewrite <- R5 in HO. change (opcode_at bc s = 0x07) in HO.
    exists (set_ip s (ip s + 3)). split.
    - apply steps_one; [lia|lia|]. enter_op HO. enter_args. rewrite key_eq by (auto; lia). reflexivity.
    - unfold at_point, ready. cbn [md tr boff en ip loops buf cur set_ip]. rewrite R5. repeat split; auto.
  Qed.
End Items.

Lemma lists_code id k : code (lists_instrs id k) =
  code (map (fun b : bool => ins (if b then 0x02 else 0x01) [] []) (ls_orders k)) ++ code [ins 0x07 [id (ls_name k)] []] ++ code (flat_map (item_instrs id) (ls_items k)).
Proof. unfold lists_instrs. rewrite code_app. f_equal. Qed.
Lemma what_code_wf id w k : what_fits w -> wf_bytes (code (what_instrs id w k)).
Proof.
  destruct w as [c|ref ty|ty]; cbn [what_fits what_instrs]; [apply content_code_wf|intros W; apply code_wf..];
    repeat apply Forall_cons; try apply Forall_nil; cbn [ins opcode args]; (split; [lia|constructor]).
Qed.
Lemma lists_code_wf id k : Forall (fun i => what_fits (i_what i)) (ls_items k) -> wf_bytes (code (lists_instrs id k)).
Proof.
  intros F. rewrite lists_code. apply wf_app; [|apply wf_app].
  - apply code_wf. apply Forall_forall. intros i I. apply in_map_iff in I as (b & <- & _). destruct b; (split; [reflexivity|constructor]).
  - apply code_wf. repeat constructor.
  - induction F as [|f fs W F IH]; [constructor|]. cbn [flat_map]. rewrite code_app. apply wf_app; [|exact IH]. unfold item_instrs. rewrite !code_app.
    repeat apply wf_app; [|now apply what_code_wf|]; (destruct (i_big f); [apply code_wf; repeat constructor|constructor]).
Qed.
Lemma item_read_fits i ws : item_read i ws -> what_fits (i_what i).
Proof. intros R. destruct R as [l c n ws (os & a & b & _ & CR & _)|? ? ? ? ? ? ? ? ? _ _ _ T|? ? ? ? ? ? ? _ _ T]; cbn [i_what what_fits]; [eapply read_wf; eauto|eapply types; eauto..]. Qed.
Lemma items_read_fits is ws : items_read is ws -> Forall (fun i => what_fits (i_what i)) is.
Proof. induction 1; constructor; auto. eapply item_read_fits; eauto. Qed.

Section Whole.
  Context {H : Type} (host : H -> request -> H * reply) (lm : libm) (id : list N -> N) (k : lists).
  Hypothesis FC : Forall (fun i => what_fits (i_what i)) (ls_items k).
  Hypothesis FK : Forall (named_below id 65536) (ls_items k).
  Hypothesis RL : rest_last (ls_items k).
  Let bc := code (lists_instrs id k).
  Let WB : wf_bytes bc := lists_code_wf id k FC.

  Lemma lists_start m data h : exists n s1 q, steps host lm bc n (init m data) h s1 h [] /\ at_point s1 m (lists_order k) q [] data 0 /\
    placed bc q (code (flat_map (item_instrs id) (ls_items k))) /\ lenN bc = q + lenN (code (flat_map (item_instrs id) (ls_items k))).
  Proof.
    assert (P : placed bc 0 bc) by (apply placed_split; exists [], []; now rewrite app_nil_r). unfold bc in P at 2. rewrite lists_code in P.
    apply placed_app in P as (P1 & P). apply placed_app in P as (P2 & P3). rewrite orders_code_len in *. change (lenN (code [ins 7 [id (ls_name k)] []])) with 3 in P3.
    destruct (top_orders host lm bc (ls_orders k) 0 (init m data) h m LE [] data 0 P1 ltac:(repeat split)) as (n & s1 & S1 & R1).
    destruct (title_point host lm bc WB _ _ s1 h m _ [] data 0 P2 R1) as (s2 & S2 & R2).
    exists (n + 1)%nat, s2, (0 + lenN (ls_orders k) + 3). split; [change (@nil event) with (@nil event ++ []); eapply steps_trans; eauto|].
    split; [unfold lists_order; rewrite <- last_orders; exact R2|]. split; [exact P3|].
    unfold bc. rewrite lists_code, !lenN_app, orders_code_len. change (lenN (code [ins 7 [id (ls_name k)] []])) with 3. lia.
  Qed.
  Lemma encode_lists data h ds t h' : gives_items id 0 data (ls_items k) ds t -> plays host h t h' ->
    (In (Values []) ds -> Forall (named_below id 52) (ls_items k)) -> Forall2 (fun i d => item_ok (i_what i) d) (ls_items k) ds -> wf_bytes data ->
    let msg := lists_bytes k ds in lenN msg <= lenN data -> (has_rest (ls_items k) -> lenN msg = lenN data) ->
    exists s' n, (forall fuel, (n <= fuel)%nat -> run host lm bc fuel (init Enc data) h = (Done EOk s', h', t)) /\
      buf s' = msg ++ skipn (N.to_nat (lenN msg)) data /\ position s' = 8 * lenN msg.
  Proof.
    intros G PL FZ FD WD msg L HF. destruct (lists_start Enc data h) as (n & s1 & q & S1 & AT & P & LB).
    destruct (items_enc host lm bc WB id _ _ _ _ _ G FC FK FZ FD RL q s1 _ [] [] h h' P ltac:(cbn; lia) AT eq_refl WD L HF PL) as (n2 & s2 & o' & L' & S2 & ((R1 & R2 & R3 & R4 & R5) & A1 & A2 & A3)).
    exists s2, (Datatypes.S (n + n2)). split.
    - intros fuel F. eapply (steps_run host lm bc (n + n2)); [change t with ([] ++ t); eapply steps_trans; [exact S1|exact S2]|rewrite R5; lia|lia].
    - split; [exact A2|]. unfold position. rewrite A3, R3. fold (lists_bytes k ds). fold msg. lia.
  Qed.
  Lemma decode_lists rest h ds t h' : told_items id 0 (ls_items k) ds t -> plays host h t h' ->
    (In (Values []) ds -> Forall (named_below id 52) (ls_items k)) -> Forall2 (fun i d => item_ok (i_what i) d) (ls_items k) ds -> wf_bytes rest ->
    (has_rest (ls_items k) -> rest = []) -> let msg := lists_bytes k ds in
    exists s' n, (forall fuel, (n <= fuel)%nat -> run host lm bc fuel (init Dec (msg ++ rest)) h = (Done EOk s', h', t)) /\
      buf s' = msg ++ rest /\ position s' = 8 * lenN msg.
  Proof.
    intros G PL FZ FD WD HF msg. destruct (lists_start Dec (msg ++ rest) h) as (n & s1 & q & S1 & AT & P & LB).
    assert (WF : wf_bytes (buf s1)). { destruct AT as (_ & _ & -> & _). apply wf_app; [now apply items_wf|exact WD]. }
    destruct (items_dec host lm bc WB id _ _ _ _ G FC FK FZ FD RL q s1 _ [] [] rest h h' P ltac:(cbn; lia) AT eq_refl WF HF PL) as (n2 & s2 & o' & L' & S2 & ((R1 & R2 & R3 & R4 & R5) & A1 & A2 & A3)).
    exists s2, (Datatypes.S (n + n2)). split.
    - intros fuel F. eapply (steps_run host lm bc (n + n2)); [change t with ([] ++ t); eapply steps_trans; [exact S1|exact S2]|rewrite R5; lia|lia].
    - split; [exact A2|]. unfold position. rewrite A3, R3. fold (lists_bytes k ds). fold msg. lia.
  Qed.
End Whole.
