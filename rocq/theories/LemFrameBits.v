(** Runs of bit fields read from any bytes. *)
From Coq Require Import ZifyBool ZifyNat ZifyN.
From Verif Require Import Base SpecBytes LemBase ModelWord LemWord ModelBits LemBits ModelFloat ModelTrans ModelVM SpecVM LemAct LemWire LemInstr LemField LemCheck
  SpecParse SpecNames SpecPacket SpecFlow SpecMessage LemFlow LemImage LemSend LemMessage SpecNest LemNest LemNestRun SpecRead LemRead SpecParts LemPartsBits SpecFrames.
Ltac Zify.zify_post_hook ::= Z.div_mod_to_equations.

(** ** Any bits are those of some values *)
Lemma bits_exist (f : N -> bool) w : exists v, v < 2 ^ w /\ forall i, i < w -> N.testbit v i = f i.
Proof.
  induction w as [|w (v & B & T)] using N.peano_ind; [exists 0; split; [cbn; lia|lia]|].
  exists (v + (if f w then 2 ^ w else 0)). rewrite N.pow_succ_r'. split; [destruct (f w); lia|]. intros i I.
  assert (EV : v = v mod 2 ^ w) by (symmetry; now apply N.mod_small).
  destruct (f w) eqn:F; [|rewrite N.add_0_r].
  - assert (A : N.land v (2 ^ w) = 0).
    { apply N.bits_inj_0. intros n. rewrite N.land_spec, N.pow2_bits_eqb. destruct (N.eqb_spec w n) as [<-|]; [|apply andb_false_r]. rewrite EV, N.mod_pow2_bits_high by lia. reflexivity. }
    assert (X : v + 2 ^ w = N.lxor v (2 ^ w)) by (apply N.add_nocarry_lxor; exact A). rewrite X, N.lxor_spec, N.pow2_bits_eqb.
    destruct (N.eqb_spec w i) as [<-|NE]; [rewrite EV, N.mod_pow2_bits_high by lia; now rewrite F|]. rewrite xorb_false_r. apply T. lia.
  - destruct (N.eq_dec i w) as [-> |NE]; [rewrite EV, N.mod_pow2_bits_high by lia; now rewrite F|]. apply T. lia.
Qed.
Lemma fits_exist sg w u : 1 <= w <= 64 -> u < 2 ^ w -> exists v, bit_fits sg w v /\ v mod 2 ^ w = u.
Proof.
  intros W B. unfold bit_fits. destruct sg; [|exists u; split; [exact B|now apply N.mod_small]].
  assert (LE64 : 2 ^ w <= 2 ^ 64) by (apply N.pow_le_mono_r; lia).
  assert (EM : forall z, ofZ 8 z mod 2 ^ w = Z.to_N (z mod 2 ^ Z.of_N w)).
  { intros z. unfold ofZ. change (8 * 8) with 64. rewrite <- (N2Z.id (Z.to_N _ mod _)). f_equal. rewrite N2Z.inj_mod, Z2N.id by (apply Z.mod_pos_bound; reflexivity). rewrite N2Z.inj_pow.
    change (Z.of_N 2) with 2%Z. change (2 ^ Z.of_N 64)%Z with (2 ^ 64)%Z.
    replace (2 ^ 64)%Z with (2 ^ Z.of_N w * 2 ^ (64 - Z.of_N w))%Z by (rewrite <- Z.pow_add_r by lia; f_equal; lia).
    rewrite Z.rem_mul_r by (try apply Z.pow_nonzero; try apply Z.pow_pos_nonneg; lia). rewrite Z.mul_comm, Z.mod_add by (apply Z.pow_nonzero; lia). apply Z.mod_mod. apply Z.pow_nonzero; lia. }
  destruct (sign_extend_spec (Z.of_N u) w W) as (v & SE & VB & SV).
  assert (P : (2 ^ Z.of_N w = 2 * 2 ^ (Z.of_N w - 1))%Z) by (rewrite <- Z.pow_succ_r by lia; f_equal; lia).
  assert (PP : (0 < 2 ^ (Z.of_N w - 1))%Z) by (apply Z.pow_pos_nonneg; lia).
  pose proof (Z.mod_pos_bound (Z.of_N u + 2 ^ (Z.of_N w - 1)) (2 ^ Z.of_N w) ltac:(lia)) as MB.
  exists v. rewrite number8. split; [split; [exact VB|lia]|].
  rewrite <- (ofZ_toS 8 v) by (auto; lia). rewrite EM, SV.
  rewrite Zminus_mod_idemp_l. replace (Z.of_N u + 2 ^ (Z.of_N w - 1) - 2 ^ (Z.of_N w - 1))%Z with (Z.of_N u) by lia.
  rewrite Z.mod_small by (split; [lia|]; assert (2 ^ Z.of_N w = Z.of_N (2 ^ w))%Z by (rewrite N2Z.inj_pow; reflexivity); lia). apply N2Z.id.
Qed.
Lemma fits_mod sg w v v' : 1 <= w <= 64 -> bit_fits sg w v -> bit_fits sg w v' -> v mod 2 ^ w = v' mod 2 ^ w -> v = v'.
Proof.
  intros W F F' E. unfold bit_fits in *. destruct sg; [|rewrite !N.mod_small in E; auto].
  destruct F as (B & R), F' as (B' & R'). rewrite number8 in R, R'. apply toS_eq; auto.
  destruct (sign_extend_spec (toS 8 v) w W) as (x & SE & _ & SV). destruct (sign_extend_spec (toS 8 v') w W) as (x' & SE' & _ & SV'). rewrite ofZ_toS in SE, SE' by (auto; lia).
  rewrite E, SE' in SE. injection SE as ->. rewrite SV in SV'.
  assert (P : (2 ^ Z.of_N w = 2 * 2 ^ (Z.of_N w - 1))%Z) by (rewrite <- Z.pow_succ_r by lia; f_equal; lia).
  rewrite P in SV'. revert R R' SV'. generalize (toS 8 v) (toS 8 v') (2 ^ (Z.of_N w - 1))%Z. clear. intros x y b R R' E.
  rewrite (Z.mod_small (x + b)), (Z.mod_small (y + b)) in E by (clear E; split; apply Z.le_sub_le_add_r || idtac; Lia.lia). clear R R'. Lia.lia.
Qed.
Lemma value_exists o sg w (f : N -> bool) : 1 <= w <= 64 -> exists v, bit_fits sg w v /\ forall k, k < w -> nth (N.to_nat k) (bits_of o w v) false = f k.
Proof.
  intros W. destruct (bits_exist (fun i => f (match o with LE => i | BE => w - 1 - i end)) w) as (u & B & T). destruct (fits_exist sg w u W B) as (v & F & E).
  exists v. split; [exact F|]. intros k K. rewrite nth_bits_of by exact K. set (i := match o with LE => k | BE => w - 1 - k end). assert (I : i < w) by (unfold i; destruct o; lia).
  rewrite <- (N.mod_pow2_bits_low v w i I), E, T by exact I. f_equal. unfold i. destruct o; lia.
Qed.
Lemma bits_apart o sg w v v' : 1 <= w <= 64 -> bit_fits sg w v -> bit_fits sg w v' -> bits_of o w v = bits_of o w v' -> v = v'.
Proof.
  intros W F F' E. apply (fits_mod sg w); auto. apply N.bits_inj. intros i. destruct (N.ltb_spec i w) as [I|I]; [|now rewrite !N.mod_pow2_bits_high].
  rewrite !N.mod_pow2_bits_low by exact I. set (k := match o with LE => i | BE => w - 1 - i end). assert (K : k < w) by (unfold k; destruct o; lia).
  pose proof (f_equal (fun l => nth (N.to_nat k) l false) E) as X. cbv beta in X. rewrite !nth_bits_of in X by exact K. unfold k in X. destruct o; [exact X|].
  replace (w - 1 - (w - 1 - i)) with i in X by lia. exact X.
Qed.

Lemma run_length id o l : Forall (bit_wf id) l -> Forall is_bit l -> forall a vs, bits_ok l vs -> lenN (stream_of o a l vs) = run_width l.
Proof.
  induction l as [|b l IH]; intros W B a vs K; [reflexivity|]. inversion W as [|? ? W1 W2]; subst. inversion B as [|? ? B1 B2]; subst. destruct b as [sg w n|w|b]; [|contradiction|contradiction].
  destruct vs as [|v vs]; [contradiction|]. destruct K as (K1 & K2). cbn [stream_of run_width fold_right bit_width]. rewrite lenN_app, lenN_bits_of. f_equal. now apply IH.
Qed.
Lemma run_exists id o l : Forall (bit_wf id) l -> Forall is_bit l -> forall a (f : N -> bool), exists vs, bits_ok l vs /\ forall k, k < run_width l -> nth (N.to_nat k) (stream_of o a l vs) false = f k.
Proof.
  induction l as [|b l IH]; intros W B a f; [exists []; split; [exact Logic.I|cbn; lia]|]. inversion W as [|? ? W1 W2]; subst. inversion B as [|? ? B1 B2]; subst. destruct b as [sg w n|w|b]; [|contradiction|contradiction].
  destruct W1 as (W1 & _). destruct (value_exists o sg w f W1) as (v & F & T). destruct (IH W2 B2 (a + w) (fun k => f (w + k))) as (vs & K & TS).
  exists (v :: vs). split; [split; auto|]. intros k KK. cbn [stream_of run_width fold_right bit_width] in *. rewrite nth_two, lenN_bits_of. destruct (N.ltb_spec k w) as [L|L]; [now apply T|].
  rewrite TS by (unfold run_width; lia). f_equal. lia.
Qed.
Lemma run_apart id o l : Forall (bit_wf id) l -> Forall is_bit l -> forall a vs vs', bits_ok l vs -> bits_ok l vs' -> stream_of o a l vs = stream_of o a l vs' -> vs = vs'.
Proof.
  induction l as [|b l IH]; intros W B a vs vs' K K' E; [destruct vs, vs'; easy|]. inversion W as [|? ? W1 W2]; subst. inversion B as [|? ? B1 B2]; subst. destruct b as [sg w n|w|b]; [|contradiction|contradiction].
  destruct vs as [|v vs], vs' as [|v' vs']; try contradiction. destruct K as (K1 & K2), K' as (K1' & K2'). destruct W1 as (W1 & _). cbn [stream_of] in E.
  assert (L : length (bits_of o w v) = length (bits_of o w v')) by (pose proof (lenN_bits_of o w v); pose proof (lenN_bits_of o w v'); unfold lenN in *; lia).
  assert (E1 := f_equal (firstn (length (bits_of o w v))) E). assert (E2 := f_equal (skipn (length (bits_of o w v))) E).
  rewrite L in E1 at 2. rewrite L in E2 at 2. rewrite !firstn_app, !firstn_all, !Nat.sub_diag in E1. cbn [firstn] in E1. rewrite !app_nil_r in E1.
  rewrite !skipn_app, !skipn_all, !Nat.sub_diag in E2. cbn [skipn app] in E2. f_equal; [eapply bits_apart; eauto|eapply IH; eauto].
Qed.
Lemma packed_exists id o l x : Forall (bit_wf id) l -> Forall is_bit l -> wf_bytes x -> 8 * lenN x = run_width l -> exists vs, bits_ok l vs /\ packed o (stream_of o 0 l vs) = x.
Proof.
  intros W B WX LX. destruct (run_exists id o l W B 0 (sbit o x)) as (vs & K & T). exists vs. split; [exact K|]. pose proof (run_length id o l W B 0 vs K) as RL.
  apply (sbit_ext o); [apply wf_packed|exact WX|rewrite lenN_packed; lia|]. rewrite lenN_packed. intros i I. rewrite sbit_packed by lia. apply T. lia.
Qed.
Lemma packed_apart id o l vs vs' : Forall (bit_wf id) l -> Forall is_bit l -> run_width l mod 8 = 0 -> bits_ok l vs -> bits_ok l vs' ->
  packed o (stream_of o 0 l vs) = packed o (stream_of o 0 l vs') -> vs = vs'.
Proof.
  intros W B M K K' E. apply (run_apart id o l W B 0); auto. pose proof (run_length id o l W B 0 vs K) as RL. pose proof (run_length id o l W B 0 vs' K') as RL'.
  apply nth_ext with (d := false) (d' := false); [unfold lenN in *; lia|]. intros n I. replace n with (N.to_nat (N.of_nat n)) by lia.
  rewrite <- !(sbit_packed o) by (unfold lenN in *; lia). now rewrite E.
Qed.

(** ** The decoder reads them, as far as there are any *)
Section Any.
  Context {H : Type} (host : H -> request -> H * reply) (lm : libm) (bc : list N) (WB : wf_bytes bc).
  Hypothesis LI : listens host.
  Notation steps := (steps host lm bc).
  Lemma bit_any q sg w k s h o L bf : placed bc q (code [ins (if sg : bool then 0x21 else 0x20) [k] [w]]) -> 1 <= w <= 64 -> k < 65536 ->
    in_bits s Dec o q L bf -> wf_bytes bf -> position s <= 8 * lenN bf ->
    exists s' h' t, steps 1 s h s' h' t /\ in_bits s' Dec o (q + 4) L bf /\ position s' = N.min (position s + w) (8 * lenN bf).
  Proof.
    intros P HW HK (I1 & I2 & I3 & I4 & I5 & I6 & I7) WF LB. set (op := if sg then 0x21 else 0x20) in *.
    assert (PK : placed bc q (op :: le_bytes 2 k ++ [w])) by (cbn [code flat_map instr_bytes opcode refs args ins map] in P; rewrite ?app_nil_r in P; exact P).
    pose proof (placed_le _ _ _ PK) as QL. change (lenN (op :: le_bytes 2 k ++ [w])) with 4 in QL.
    destruct (placed_key bc q op k _ PK HK s I5) as (HO & KA & _).
    assert (HN : nthN bc (ip s + 3) = w).
    { rewrite I5. change (op :: le_bytes 2 k ++ [w]) with ((op :: le_bytes 2 k) ++ [w]) in PK. apply placed_app in PK as (_ & PK). apply placed_one in PK as (PK & _). exact PK. }
    pose proof (read_bits_spec o bf (cur s) (boff s) w WF I3) as X. cbv zeta in X. destruct (read_bits o bf (cur s) (boff s) w) as [[[v c'] o']|u] eqn:E; [|lia].
    destruct X as (O' & PP & V64 & FE). unfold position in *.
    assert (OC : opcode_at bc s <> 0x41 /\ opcode_at bc s <> 0x4A) by (rewrite HO; unfold op; destruct sg; split; discriminate).
    assert (FIN : forall h' t, interp host (step lm bc s) h = (SCont (at_bits s 4 bf c' o'), h', t) ->
      exists s' h' t, steps 1 s h s' h' t /\ in_bits s' Dec o (q + 4) L bf /\ 8 * cur s' + boff s' = N.min (8 * cur s + boff s + w) (8 * lenN bf)).
    { intros h' t ST. eexists _, h', t. split; [apply steps_one; [lia|exact OC|exact ST]|]. split; [|cbn [at_bits cur boff]; lia]. unfold in_bits, at_bits. cbn [md tr boff en ip loops buf]. rewrite I5. auto 10. }
    unfold op in HO. destruct sg.
    - assert (SE : exists v', sign_extend v w = Ok v') by (unfold sign_extend; destruct (64 <=? w); [eauto|]; destruct (N.eqb_spec w 0); [lia|eauto]). destruct SE as (v' & SE).
      destruct (hear host LI h (ask (key_at bc s) 0x21 (PInt W8 v') (HBitI w))) as (h1 & r & HH & HR & _).
      pose proof (bit_i_dec host lm bc WB s h h1 r v v' c' o' HO ltac:(lia) I1) as X. cbv zeta in X. rewrite HN, I4, I7 in X. eapply FIN. apply X; eauto.
    - destruct (hear host LI h (ask (key_at bc s) 0x20 (PInt W8 v) (HBitU w))) as (h1 & r & HH & HR & _).
      pose proof (bit_u_dec host lm bc WB s h h1 r v c' o' HO ltac:(lia) I1) as X. cbv zeta in X. rewrite HN, I4, I7 in X. eapply FIN. apply X; eauto.
  Qed.
  Lemma bits_any id l : Forall (bit_wf id) l -> Forall is_bit l -> forall q s h o L bf, placed bc q (code (map (bit_instr id) l)) -> in_bits s Dec o q L bf -> wf_bytes bf -> position s <= 8 * lenN bf ->
    exists n s' h' t, steps n s h s' h' t /\ in_bits s' Dec o (q + lenN (code (map (bit_instr id) l))) L bf /\ position s' = N.min (position s + run_width l) (8 * lenN bf).
  Proof.
    induction l as [|b l IH]; intros W B q s h o L bf P IB WF LB.
    - exists 0%nat, s, h, []. split; [constructor|]. cbn [map run_width fold_right]. change (lenN (code [])) with 0. rewrite !N.add_0_r. split; [exact IB|lia].
    - inversion W as [|? ? W1 W2]; subst. inversion B as [|? ? B1 B2]; subst. destruct b as [sg w n|w|b]; [|contradiction|contradiction]. destruct W1 as (HW & HK).
      cbn [map bit_instr] in P |- *. change (code (?a :: ?r)) with (code ([a] ++ r)) in P |- *. rewrite code_app in P |- *. rewrite lenN_app. apply placed_app in P as (P1 & P2).
      change (lenN (code [ins (if sg then 33 else 32) [id n] [w]])) with 4 in *.
      destruct (bit_any q sg w (id n) s h o L bf P1 HW HK IB WF LB) as (s1 & h1 & t1 & S1 & IB1 & PO1).
      destruct (IH W2 B2 (q + 4) s1 h1 o L bf P2 IB1 WF ltac:(lia)) as (m & s2 & h2 & t2 & S2 & IB2 & PO2).
      exists (1 + m)%nat, s2, h2, (t1 ++ t2). split; [eapply steps_trans; eauto|]. rewrite N.add_assoc. split; [exact IB2|]. cbn [run_width fold_right bit_width] in *. unfold run_width in *. lia.
  Qed.
End Any.
