(** The whole parser once more: where undefined behaviour can come from. *)
From Coq Require Import Strings.String ZifyBool ZifyNat ZifyN Lia.
From Verif Require Import Base ModelFloat ModelVM ModelImage ModelText SpecText ModelNames ModelParse ModelSchema LemBase LemErr LemGrammar SpecCalm.
From Verif Require LemEnds.
Ltac Zify.zify_post_hook ::= Z.div_mod_to_equations.

(** ** Numbers *)
Lemma decimals_cons c l : decimals (c :: l) = decimals l + (if (48 <=? c) && (c <=? 57) then 1 else 0).
Proof. unfold decimals. cbn [filter]. destruct (_ && _); [rewrite lenN_cons|]; lia. Qed.
Lemma pow10_succ a : 10 ^ (a + 1) = 10 * 10 ^ a. Proof. rewrite N.add_1_r, N.pow_succ_r'. reflexivity. Qed.
Lemma acc_dec_lt bits l : forall r a, r < 10 ^ a -> acc_dec bits l r < 10 ^ (a + decimals l).
Proof.
  induction l as [|c l IH]; intros r a R; [cbn; rewrite N.add_0_r; exact R|]. rewrite decimals_cons. cbn [acc_dec fold_left]. change (is_digit c) with ((48 <=? c) && (c <=? 57)).
  destruct ((48 <=? c) && (c <=? 57)) eqn:D.
  - replace (a + (decimals l + 1)) with ((a + 1) + decimals l) by lia. apply IH. rewrite pow10_succ.
    assert (X : (r * 10 + (c - 48)) mod 2 ^ bits <= r * 10 + (c - 48)) by (apply N.mod_le; apply N.pow_nonzero; discriminate).
    revert R X. generalize (10 ^ a) ((r * 10 + (c - 48)) mod 2 ^ bits). intros t u R X. lia.
  - rewrite N.add_0_r. apply IH. exact R.
Qed.
Lemma hex_lt c : hex_char_to_int c < 16.
Proof. unfold hex_char_to_int. repeat match goal with |- context [if ?b then _ else _] => destruct b eqn:? end; lia. Qed.
Lemma lor_lt a b n : a < 2 ^ n -> b < 2 ^ n -> N.lor a b < 2 ^ n.
Proof.
  intros A B. destruct (N.eq_dec a 0) as [-> |NA]; [exact B|]. destruct (N.eq_dec b 0) as [-> |NB]; [rewrite N.lor_0_r; exact A|].
  apply N.log2_lt_pow2; [|rewrite N.log2_lor; apply N.max_lub_lt; apply N.log2_lt_pow2; lia].
  apply N.neq_0_lt_0. intros X. apply N.lor_eq_0_iff in X. lia.
Qed.
Lemma acc_hex_lt bits l : forall r a, r < 2 ^ (4 * a) -> acc_hex bits l r < 2 ^ (4 * (a + lenN l)).
Proof.
  induction l as [|c l IH]; intros r a R; [change (lenN []) with 0; rewrite N.add_0_r; exact R|]. rewrite lenN_cons. cbn [acc_hex fold_left].
  replace (a + (lenN l + 1)) with ((a + 1) + lenN l) by lia. apply IH. rewrite N.mul_add_distr_l. change (4 * 1) with 4. apply lor_lt.
  - eapply N.le_lt_trans; [apply N.mod_le; apply N.pow_nonzero; discriminate|]. rewrite N.shiftl_mul_pow2, (N.pow_add_r 2 (4 * a) 4). apply N.mul_lt_mono_pos_r; [lia|exact R].
  - eapply N.lt_le_trans; [apply hex_lt|]. change 16 with (2 ^ 4). apply N.pow_le_mono_r; [discriminate|lia].
Qed.
Definition hexed (s : list N) : Prop := exists r, s = 48 :: 120 :: r \/ s = 48 :: 88 :: r.
Lemma acc_lt bits s d h : decimals s <= d -> (hexed s -> lenN s <= h + 2) -> acc_number bits s < 10 ^ d \/ acc_number bits s < 2 ^ (4 * h).
Proof.
  intros D H. unfold acc_number. destruct (_ && _ && _) eqn:X.
  - right. destruct s as [|a [|b s]]; [cbn in X; discriminate|cbn in X; lia|]. cbn [peek nth] in X. assert (HX : lenN (a :: b :: s) <= h + 2).
    { apply H. exists s. assert (a = 48 /\ (b = 120 \/ b = 88)) as (-> & [-> | ->]) by lia; auto. }
    rewrite !lenN_cons in HX. cbn [skipn]. eapply N.lt_le_trans; [apply (acc_hex_lt bits s 0 0); cbn; lia|]. apply N.pow_le_mono_r; [discriminate|]. lia.
  - left. eapply N.lt_le_trans; [apply (acc_dec_lt bits s 0 0); cbn; lia|]. apply N.pow_le_mono_r; [discriminate|]. lia.
Qed.
Lemma digits_less d h s : digits_upto d (h + 2) s -> forall c r, s = c :: r -> c = 43 \/ c = 45 -> decimals r <= d /\ (hexed r -> lenN r <= h + 2).
Proof.
  intros (D & H) c r -> C. rewrite decimals_cons in D. split; [destruct (_ && _) in D; lia|]. intros (x & X). assert (Y : lenN (c :: r) <= h + 2).
  { apply H. exists [c], x. split; [destruct C as [-> | ->]; cbn; auto|]. destruct X as [-> | ->]; auto. }
  rewrite lenN_cons in Y. lia.
Qed.
Lemma digits_self d h s : digits_upto d (h + 2) s -> decimals s <= d /\ (hexed s -> lenN s <= h + 2).
Proof. intros (D & H). split; [auto|]. intros (x & X). apply H. exists [], x. cbn. auto. Qed.
Definition mild (s : list N) : Prop := exists z, parse_number_i64 s = Ok z /\ (- 2 ^ 60 < z < 2 ^ 60)%Z.
Lemma toS_small v : v < 2 ^ 60 -> toS 8 v = Z.of_N v.
Proof. intros L. unfold toS. destruct (N.ltb_spec v (2 ^ (8 * 8 - 1))) as [_|B]; [reflexivity|]. change (2 ^ (8 * 8 - 1)) with 9223372036854775808 in B. change (2 ^ 60) with 1152921504606846976 in L. lia. Qed.
Lemma digits_mild s : digits_upto 18 17 s -> mild s.
Proof.
  intros D. change 17 with (15 + 2) in D.
  assert (L : forall r, decimals r <= 18 /\ (hexed r -> lenN r <= 15 + 2) -> acc_number 64 r < 2 ^ 60).
  { intros r (X & Y). destruct (acc_lt 64 r 18 15 X Y) as [Z|Z]; [|exact Z]. eapply N.lt_trans; [exact Z|]. reflexivity. }
  assert (R : forall v, v < 2 ^ 60 -> (- 2 ^ 60 < Z.of_N v < 2 ^ 60)%Z /\ (- 2 ^ 60 < - Z.of_N v < 2 ^ 60)%Z).
  { intros v V. change (2 ^ 60)%Z with 1152921504606846976%Z. change (2 ^ 60) with 1152921504606846976 in V. lia. }
  unfold mild, parse_number_i64. destruct s as [|c r]; [exists 0%Z; split; [reflexivity|split; reflexivity]|].
  destruct (N.eqb_spec c 45) as [->|NM]; [|destruct (N.eqb_spec c 43) as [->|NP]].
  - pose proof (L r (digits_less _ _ _ D _ _ eq_refl (or_intror eq_refl))) as V. rewrite toS_small by auto.
    destruct (Z.eqb_spec (Z.of_N (acc_number 64 r)) (- 2 ^ 63)%Z); [exfalso; lia|]. eexists. split; [reflexivity|]. now apply R.
  - pose proof (L r (digits_less _ _ _ D _ _ eq_refl (or_introl eq_refl))) as V. rewrite toS_small by auto. eexists. split; [reflexivity|]. now apply R.
  - pose proof (L _ (digits_self _ _ _ D)) as V. rewrite toS_small by auto. eexists. split; [reflexivity|]. now apply R.
Qed.
Lemma digits_more d h d' h' s : digits_upto d h s -> d <= d' -> h <= h' -> digits_upto d' h' s.
Proof. intros (D & H) A B. split; [lia|]. intros X. specialize (H X). lia. Qed.
Lemma digits_short s : digits_upto 4 6 s -> parse_number_u32 s <= 65536.
Proof.
  intros D. change 6 with (4 + 2) in D. apply digits_self in D as (X & Y). unfold parse_number_u32. destruct (acc_lt 32 s 4 4 X Y) as [Z|Z]; revert Z; generalize (acc_number 32 s); intros v Z.
  - change (10 ^ 4) with 10000 in Z. lia.
  - change (2 ^ (4 * 4)) with 65536 in Z. lia.
Qed.

(** ** A prefixed name that does not fit *)
Lemma append_ub f : forall src prefix strs out u, append_with_prefix f src prefix strs out = Some (Ub u) -> u = UData.
Proof.
  induction f as [|f IH]; intros src prefix strs out u E; cbn [append_with_prefix] in E; (destruct src as [|op src]; [discriminate|]); [discriminate|].
  destruct (opcode_size op) as [(sz & key)|]; [|discriminate]. destruct (_ <? _); [discriminate|]. destruct (negb key); [eauto|].
  unfold prefixed in E. destruct (_ <? 512); [|congruence]. destruct (strtab_add strs _). eauto.
Qed.

(** ** The parser's state *)
Section Calm.
Variables (U D : bool).
(** U: unaligned structures are allowed; D: a doc comment or a structure is not *)
Definition unit_ : Z := if U then 65536%Z else 0%Z.
Definition fine (t : token) : Prop :=
  mild (ttext t) /\ (U = true -> parse_number_u32 (ttext t) <= 65536) /\ (U = false -> match_keyword t "unaligned_bytes" = false) /\
  (D = true -> tk t <> TDoc /\ tk t <> TStruct).
Definition held (t : token) : Prop := fine t /\ tk t <> TError.
Definition going (t : token) : bool := negb (is_kind TEof t).
Definition mu (p : pst) : Z := Z.of_nat (List.length (filter going (p_cur p :: p_toks p))).
Definition room (p : pst) : Z := (2 ^ 31 - 1 - p_bits p - unit_ * mu p)%Z.
Record inv (p : pst) : Prop := {
  v_toks : Forall fine (p_toks p); v_end : LemEnds.ended (p_toks p); v_len : lenN (p_toks p) < 2 ^ 60; v_cur : held (p_cur p); v_prev : held (p_prev p);
  v_structs : D = true -> p_structs p = []; v_bits : (0 <= p_bits p)%Z; v_room : (0 <= room p)%Z;
  v_free : U = false -> p_unaligned p = false /\ p_bitmode p = false }.
Definition good (k : Z) (p q : pst) : Prop :=
  inv q /\ (room p - k <= room q)%Z /\ (mu q <= mu p)%Z /\ (p_bitmode p = false -> p_bitmode q = false /\ p_bits q = p_bits p).
Definition bad (u : ubk) : Prop := D = false /\ u = UData.
Definition nsc {A} (k : Z) (m : par A) (Q : A -> Prop) : Prop :=
  forall p, inv p -> (k <= room p)%Z -> match m p with POk a q => good k p q /\ Q a | PUb u => bad u | PFuel => True end.
Definition ns {A} (m : par A) (Q : A -> Prop) : Prop := nsc 0 m Q.
Definition any {A} (a : A) : Prop := True.

Lemma unit_pos : (0 <= unit_)%Z. Proof. unfold unit_. destruct U; lia. Qed.
Lemma good_refl p : inv p -> good 0 p p.
Proof. intros I. split; [auto|]. split; [lia|]. split; [lia|auto]. Qed.
Lemma good_trans k1 k2 p q r : good k1 p q -> good k2 q r -> good (k1 + k2) p r.
Proof.
  intros (A & B & C & F) (A' & B' & C' & F'). split; [auto|]. split; [lia|]. split; [lia|]. intros X. destruct (F X) as (Y & Z). destruct (F' Y) as (Y' & Z').
  split; [auto|]. congruence.
Qed.
Lemma nsc_bind {A B} k1 k2 (m : par A) (g : A -> par B) Q R : (0 <= k1)%Z -> (0 <= k2)%Z -> nsc k1 m Q -> (forall a, Q a -> nsc k2 (g a) R) -> nsc (k1 + k2) (pbind m g) R.
Proof.
  intros K1 K2 M G p I L. unfold pbind. specialize (M p I ltac:(lia)). destruct (m p) as [a q|u|]; [|exact M|exact Logic.I]. destruct M as (GQ & QA).
  specialize (G a QA q (proj1 GQ)). assert (LQ : (k2 <= room q)%Z) by (destruct GQ as (_ & X & _); lia). specialize (G LQ).
  destruct (g a q) as [b r|u|]; [|exact G|exact Logic.I]. destruct G as (GR & RB). split; [eapply good_trans; eauto|exact RB].
Qed.
Lemma ns_bind {A B} (m : par A) (g : A -> par B) Q R : ns m Q -> (forall a, Q a -> ns (g a) R) -> ns (pbind m g) R.
Proof. intros M G. apply (nsc_bind 0 0 m g Q R); auto; lia. Qed.
Lemma nsc_bind0 {A B} k (m : par A) (g : A -> par B) Q R : (0 <= k)%Z -> ns m Q -> (forall a, Q a -> nsc k (g a) R) -> nsc k (pbind m g) R.
Proof. intros K M G. apply (nsc_bind 0 k m g Q R); auto; lia. Qed.
Lemma nsc_bind1 {A B} k (m : par A) (g : A -> par B) Q R : (0 <= k)%Z -> nsc k m Q -> (forall a, Q a -> ns (g a) R) -> nsc k (pbind m g) R.
Proof. intros K M G. replace k with (k + 0)%Z by lia. apply (nsc_bind k 0 m g Q R); auto; lia. Qed.
Lemma nsc_up {A} k (m : par A) Q : (0 <= k)%Z -> ns m Q -> nsc k m Q.
Proof.
  intros K M p I L. specialize (M p I (v_room p I)). destruct (m p) as [a q|u|]; auto. destruct M as ((X & Y & Z & W) & Q1). split; [|auto]. split; [auto|]. split; [lia|auto].
Qed.
Lemma ns_weak {A} (m : par A) (Q R : A -> Prop) : ns m Q -> (forall a, Q a -> R a) -> ns m R.
Proof. intros M K p I L. specialize (M p I L). destruct (m p) as [a q|u|]; auto. destruct M. auto. Qed.
Lemma ns_ret {A} (a : A) (Q : A -> Prop) : Q a -> ns (ret a) Q.
Proof. intros X p I L. cbn. split; [now apply good_refl|exact X]. Qed.
Lemma ns_gets {A} (f : pst -> A) (Q : A -> Prop) : (forall p, inv p -> Q (f p)) -> ns (get f) Q.
Proof. intros X p I L. cbn. split; [now apply good_refl|auto]. Qed.
Lemma ns_get {A} (f : pst -> A) : ns (get f) any. Proof. apply ns_gets. intros. exact Logic.I. Qed.
Lemma ns_cur : ns (get p_cur) held. Proof. apply ns_gets. apply v_cur. Qed.
Lemma ns_prev : ns (get p_prev) held. Proof. apply ns_gets. apply v_prev. Qed.
Definition plain_kind (k : kind) : Prop := k <> TError /\ (D = true -> k <> TDoc /\ k <> TStruct).
Lemma held_kind t : held t -> plain_kind (tk t). Proof. intros ((_ & _ & _ & X) & Y). split; auto. Qed.
Lemma ns_kind : ns (get (fun p => tk (p_cur p))) plain_kind. Proof. apply ns_gets. intros p I. apply held_kind, I. Qed.
Lemma ns_struct s : ns (get (fun p => find_struct (p_structs p) s)) (fun o => o <> None -> D = false).
Proof. apply ns_gets. intros p I X. destruct D eqn:DD; [|reflexivity]. rewrite (v_structs p I) in X by auto. cbn in X. congruence. Qed.
Lemma ns_fuel {A} (Q : A -> Prop) : ns no_fuel Q. Proof. intros p I L. exact Logic.I. Qed.
(** changes that are beside the point *)
Definition beside (p q : pst) : Prop := p_toks q = p_toks p /\ p_cur q = p_cur p /\ p_prev q = p_prev p /\ p_structs q = p_structs p /\
  p_bits q = p_bits p /\ p_bitmode q = p_bitmode p /\ p_unaligned q = p_unaligned p.
Lemma beside_good p q : inv p -> beside p q -> good 0 p q.
Proof.
  intros [T EN LN C P S B R F] (A1 & A2 & A3 & A4 & A5 & A6 & A7). assert (M : mu q = mu p) by (unfold mu; rewrite A1, A2; reflexivity).
  assert (RM : room q = room p) by (unfold room; rewrite A5, M; reflexivity). split; [|split; [lia|split; [lia|]]].
  - constructor; rewrite ?A1, ?A2, ?A3, ?A4, ?A5, ?A6, ?A7, ?RM; auto.
  - rewrite A5, A6. auto.
Qed.
Lemma ns_upd f (Q : unit -> Prop) : (forall p, beside p (f p)) -> Q tt -> ns (upd_p f) Q.
Proof. intros X Y p I L. cbn. split; [apply beside_good; auto|exact Y]. Qed.
Lemma ns_error : ns error any. Proof. apply ns_upd; [intros p; repeat split|exact Logic.I]. Qed.
Lemma next_fine toks : forall b l o c, Forall fine toks -> LemEnds.ended toks -> next_token toks b = (l, o, c) ->
  Forall fine l /\ LemEnds.ended l /\ lenN l <= lenN toks /\ exists t, o = Some t /\ held t /\ (List.length (filter going (t :: l)) <= List.length (filter going toks))%nat.
Proof.
  induction toks as [|t toks IH]; intros b l o c F EN H; [apply LemEnds.ended_pos in EN; cbn in EN; lia|]. inversion F as [|? ? FT FF]; subst. cbn [next_token] in H.
  destruct (kind_eq_dec (tk t) TError) as [K|K].
  - rewrite K in H. assert (EN' : LemEnds.ended toks) by (apply (LemEnds.ended_tail t); [auto|congruence]). destruct (IH _ _ _ _ FF EN' H) as (A1 & A2 & A3 & t' & B1 & B2 & B3).
    split; [auto|]. split; [auto|]. split; [rewrite lenN_cons; lia|]. exists t'. split; [auto|]. split; [auto|]. cbn [filter] in *. destruct (going t); cbn [List.length]; lia.
  - destruct (kind_eq_dec (tk t) TEof) as [K2|K2].
    + rewrite K2 in H. injection H as <- <- <-. split; [auto|]. split; [auto|]. split; [lia|]. exists t. split; [auto|]. split; [split; auto|].
      assert (G : going t = false) by (unfold going; rewrite (proj2 (LemEnds.is_kind_eq TEof t) K2); reflexivity). cbn [filter]. rewrite G. cbn [filter]. lia.
    + assert (EN' : LemEnds.ended toks) by (apply (LemEnds.ended_tail t); auto).
      assert (X : (toks, Some t, b) = (l, o, c)) by (destruct (tk t); try exact H; congruence). injection X as <- <- <-.
      split; [auto|]. split; [auto|]. split; [rewrite lenN_cons; lia|]. exists t. split; [auto|]. split; [split; auto|]. lia.
Qed.
Lemma mu_split p : mu p = (Z.of_nat (List.length (filter going (p_toks p))) + (if going (p_cur p) then 1 else 0))%Z.
Proof. unfold mu. cbn [filter]. destruct (going (p_cur p)); cbn [List.length]; lia. Qed.
Lemma advance_good p : inv p -> exists q, advance p = POk tt q /\ good 0 p q /\ (going (p_cur p) = true -> (mu q + 1 <= mu p)%Z /\ (room p + unit_ <= room q)%Z).
Proof.
  intros [T EN LN C P S B R F]. unfold advance. destruct (next_token _ _) as ((l & o) & bd) eqn:NT. apply next_fine in NT as (FL & EL & LL & t & -> & HT & CT); auto.
  set (q0 := set_tok _ _ _ p). eexists. split; [reflexivity|].
  assert (M : (mu q0 + (if going (p_cur p) then 1 else 0) <= mu p)%Z).
  { rewrite (mu_split p). unfold mu. cbn [q0 set_tok p_cur p_toks]. lia. }
  pose proof unit_pos as UP. assert (RM : (room p + unit_ * (if going (p_cur p) then 1 else 0) <= room q0)%Z).
  { unfold room. cbn [q0 set_tok p_bits]. fold q0. nia. }
  assert (IQ : inv q0) by (constructor; cbn; auto; [lia|destruct (going (p_cur p)); lia]).
  match goal with |- good 0 p ?q /\ _ => assert (BS : beside q0 q) by (destruct bd; repeat split); assert (MQ : mu q = mu q0 /\ room q = room q0) by (destruct bd; split; reflexivity) end.
  destruct (beside_good _ _ IQ BS) as (IQQ & _ & _ & BQ). destruct MQ as (-> & RQ). rewrite RQ. split; [split; [auto|split; [|split]]|].
  - rewrite RQ. destruct (going (p_cur p)); lia.
  - destruct BS as (B1 & B2 & _). unfold mu at 1. rewrite B1, B2. change (mu q0 <= mu p)%Z. destruct (going (p_cur p)); lia.
  - exact BQ.
  - intros G. rewrite G in *. lia.
Qed.
Lemma ns_advance : ns advance any.
Proof. intros p I L. destruct (advance_good p I) as (q & -> & G & _). split; [auto|exact Logic.I]. Qed.
Lemma ns_at k : ns (at_kind k) any. Proof. apply ns_get. Qed.
Lemma ns_if {A} (b : bool) (m1 m2 : par A) Q : ns m1 Q -> ns m2 Q -> ns (if b then m1 else m2) Q. Proof. destruct b; auto. Qed.
Lemma ns_consume k : ns (consume k) any.
Proof. unfold consume. eapply ns_bind; [apply ns_at|]. intros b _. apply ns_if; [apply ns_advance|apply ns_error]. Qed.
Lemma ns_emit l : ns (emit l) any. Proof. apply ns_upd; [intros p; repeat split|exact Logic.I]. Qed.
Lemma ns_write o l : ns (write_at o l) any. Proof. apply ns_upd; [intros p; destruct (_ <? _); repeat split|exact Logic.I]. Qed.
Lemma ns_name s : ns (add_name s) any.
Proof. intros p I L. unfold add_name. destruct (strtab_add _ _) as (t & i). split; [apply beside_good; [auto|repeat split]|exact Logic.I]. Qed.
Lemma ns_when b m : ns m any -> ns (when b m) any.
Proof. destruct b; [auto|]. intros _. now apply ns_ret. Qed.
Lemma ns_number t : held t -> ns (number_i64 (ttext t)) (fun z => (- 2 ^ 60 < z < 2 ^ 60)%Z).
Proof. intros (((z & E & B) & _) & _). unfold number_i64. rewrite E. now apply ns_ret. Qed.
Lemma ns_rule k : plain_kind k -> ns (of_result (rule k)) any.
Proof.
  intros (K1 & K2). destruct k; try (apply ns_ret; exact Logic.I); [|congruence]. intros p I L. cbn. split; [|reflexivity].
  destruct D; [|reflexivity]. destruct (K2 eq_refl). congruence.
Qed.
(** Gains: a token passed pays for one addition *)
Lemma ns_at_gain {A} k (m e : par A) R : k <> TEof -> nsc unit_ m R -> ns e R -> ns (let% b := at_kind k in if b then advance ;; m else e) R.
Proof.
  intros KE M EE p I L. unfold pbind, at_kind, get. destruct (is_kind k (p_cur p)) eqn:KK; [|apply EE; auto].
  destruct (advance_good p I) as (q & -> & (IQ & RQ & MQ & BQ) & G). apply LemEnds.is_kind_eq in KK.
  assert (GG : going (p_cur p) = true) by (unfold going; destruct (is_kind TEof (p_cur p)) eqn:X; [apply LemEnds.is_kind_eq in X; congruence|reflexivity]).
  destruct (G GG) as (M1 & R1). pose proof (v_room p I) as R0. specialize (M q IQ ltac:(lia)). destruct (m q) as [a r|u|]; auto. destruct M as ((A1 & A2 & A3 & A4) & A5).
  split; [|auto]. split; [auto|]. split; [lia|]. split; [lia|]. intros X. destruct (BQ X) as (Y & Z). destruct (A4 Y). split; [auto|congruence].
Qed.
Definition worth (t : token) : Z := if is_kind TIdentifier t then unit_ else 0%Z.
Lemma worth_pos t : (0 <= worth t)%Z. Proof. unfold worth. pose proof unit_pos. destruct (is_kind _ t); lia. Qed.
Lemma ns_ident_gain {A} (k : token -> par A) R : (forall t, held t -> nsc (worth t) (k t) R) -> ns (let% t := get p_cur in consume TIdentifier ;; k t) R.
Proof.
  intros K p I L. specialize (K (p_cur p) (v_cur p I)). unfold worth in K. unfold pbind, consume, at_kind, get. cbn. unfold pbind. destruct (is_kind TIdentifier (p_cur p)) eqn:KK.
  - destruct (advance_good p I) as (q & -> & (IQ & RQ & MQ & BQ) & G). apply LemEnds.is_kind_eq in KK.
    assert (GG : going (p_cur p) = true) by (unfold going; destruct (is_kind TEof (p_cur p)) eqn:X; [apply LemEnds.is_kind_eq in X; congruence|reflexivity]).
    destruct (G GG) as (M1 & R1). pose proof (v_room p I) as R0. specialize (K q IQ ltac:(lia)). destruct (k (p_cur p) q) as [a r|u|]; auto. destruct K as ((A1 & A2 & A3 & A4) & A5).
    split; [|auto]. split; [auto|]. split; [lia|]. split; [lia|]. intros X. destruct (BQ X) as (Y & Z). destruct (A4 Y). split; [auto|congruence].
  - pose proof (ns_error p I L) as X. unfold error, upd_p in *. destruct X as (GE & _). pose proof (v_room _ (proj1 GE)) as R0. specialize (K _ (proj1 GE) R0).
    destruct (k (p_cur p) (set_err p)) as [a r|u|]; auto.
Qed.

Ltac ns1 :=
  match goal with
  | |- ns (pbind _ _) _ => eapply ns_bind; [solve [ns1]|intros ? ?]
  | |- ns (pbind _ _) _ => eapply ns_bind; [|intros ? ?]
  | |- ns (ret _) _ => first [apply (ns_ret _ any); exact Logic.I | apply ns_ret; exact Logic.I | apply ns_ret; assumption | apply ns_ret; solve [auto]]
  | |- ns (get p_cur) _ => apply ns_cur
  | |- ns (get p_prev) _ => apply ns_prev
  | |- ns (get (fun p => tk (p_cur p))) _ => apply ns_kind
  | |- ns (get (fun p => find_struct (p_structs p) _)) _ => apply ns_struct
  | |- ns (get _) _ => apply ns_get
  | |- ns here _ => apply ns_get
  | |- ns no_fuel _ => apply ns_fuel
  | |- ns error _ => apply ns_error
  | |- ns advance _ => apply ns_advance
  | |- ns (at_kind _) _ => apply ns_at
  | |- ns (consume _) _ => apply ns_consume
  | |- ns (emit _) _ => apply ns_emit
  | |- ns (write_at _ _) _ => apply ns_write
  | |- ns (add_name _) _ => apply ns_name
  | |- ns (when _ _) _ => apply ns_when
  | |- ns (number_i64 (ttext _)) _ => apply ns_number; assumption
  | |- ns (of_result (rule _)) _ => apply ns_rule; solve [auto using held_kind]
  | |- ns (match ?x with _ => _ end) _ => destruct x eqn:?
  | H : context [@ns] |- _ => apply H; auto
  end.
Ltac nss := repeat ns1.

Lemma ns_path f : forall s, ns (path_loop f s) any.
Proof. induction f as [|f IH]; intros s; cbn [path_loop]; nss. Qed.
Lemma ns_load f s : ns (load_name f s) any.
Proof. pose proof ns_path. unfold load_name. nss. Qed.
Lemma ns_prec E f : (forall lv, ns (parse_precedence E f lv) any) /\ (forall lv t, ns (infix_loop E f lv t) any).
Proof.
  pose proof ns_load. induction f as [|f [P L]]; (split; [intros lv|intros lv t]); cbn [parse_precedence infix_loop]; try apply ns_fuel.
  - ns1. ns1. ns1. destruct (fst a1) as [[]|]; [nss|nss| |nss].
    eapply ns_bind; [instantiate (1 := any)|intros ? ?; apply L]. nss.
  - ns1. ns1. nss.
Qed.
Lemma ns_expression E f : ns (parse_expression E f) any. Proof. apply ns_prec. Qed.
Lemma ns_take_number : ns take_number held. Proof. unfold take_number. nss. Qed.
Lemma ns_take_u32 : ns take_u32 (fun n => U = true -> n <= 65536).
Proof. pose proof ns_take_number. unfold take_u32. ns1. apply ns_ret. apply H0. Qed.
Lemma ns_take_i64 : ns take_i64 (fun z => (- 2 ^ 60 < z < 2 ^ 60)%Z). Proof. pose proof ns_take_number. unfold take_i64. ns1. now apply ns_number. Qed.
Lemma ns_take_double E : ns (take_double E) any. Proof. pose proof ns_take_number. unfold take_double. nss. Qed.
Lemma ns_range E op mn mx : held mn -> held mx -> ns (emit_range_check E op mn mx) any.
Proof.
  intros A B. unfold emit_range_check. cbv zeta beta. repeat match goal with |- ns (match ?x with _ => _ end) _ => destruct x end; nss.
Qed.
Lemma ns_poly E f : forall cs, ns (poly_loop E f cs) any.
Proof. induction f as [|f IH]; intros cs; cbn [poly_loop]; [apply ns_fuel|]. ns1. eapply ns_bind; [instantiate (1 := any); nss|intros ? ?]. nss. Qed.
Lemma ns_spline E f : forall cs, ns (spline_loop E f cs) any.
Proof. pose proof (ns_take_double E). induction f as [|f IH]; intros cs; cbn [spline_loop]; [apply ns_fuel|]. ns1. eapply ns_bind; [instantiate (1 := any); nss|intros ? ?]. nss. Qed.
Lemma ns_skip f : ns (skip_to_paren f) any.
Proof. induction f; cbn [skip_to_paren]; nss. Qed.
(** the bit count *)
Lemma bits_good k p b : inv p -> (p_bits p <= b <= p_bits p + k)%Z -> (k <= room p)%Z -> p_bitmode p = true -> good k p (set_bits (p_unaligned p) (p_bitmode p) b (p_bits_valid p) p).
Proof.
  intros [T EN LN C P S B R F] BB L BM. set (q := set_bits _ _ _ _ p). assert (RM : room q = (room p - (b - p_bits p))%Z) by (unfold room; cbn [q set_bits p_bits]; change (mu q) with (mu p); lia).
  split; [|split; [lia|split; [change (mu q) with (mu p); lia|congruence]]]. constructor; auto; [cbn; lia|lia].
Qed.
Lemma unit_bits n : (U = true -> n <= 65536) -> U = true -> (Z.of_N n <= unit_)%Z.
Proof. intros X Y. unfold unit_. rewrite Y. specialize (X Y). lia. Qed.
Lemma wrap_small z : (0 <= z <= 2 ^ 31 - 1)%Z -> toS 4 (ofZ 4 z) = z.
Proof.
  intros Z. assert (X : ofZ 4 z = Z.to_N z) by (unfold ofZ; change (2 ^ Z.of_N (8 * 4))%Z with 4294967296%Z; rewrite Z.mod_small by lia; reflexivity).
  rewrite X. unfold toS. change (2 ^ (8 * 4 - 1)) with 2147483648. destruct (N.ltb_spec (Z.to_N z) 2147483648); lia.
Qed.
Lemma ns_pad n : (U = true -> n <= 65536) -> nsc unit_ (add_pad n) any.
Proof.
  intros B p I L. unfold add_pad, upd_p. split; [|exact Logic.I]. pose proof unit_pos. destruct (p_bitmode p) eqn:BM; [|apply (nsc_up unit_ (ret tt) any unit_pos (ns_ret tt any Logic.I) p I L)].
  destruct (p_bits_valid p) eqn:BV; [|apply (nsc_up unit_ (ret tt) any unit_pos (ns_ret tt any Logic.I) p I L)]. cbn [andb].
  assert (UT : U = true) by (destruct U eqn:UU; [reflexivity|destruct (v_free p I UU); congruence]). pose proof (unit_bits n B UT) as UB. pose proof (v_bits p I).
  assert (MP : (0 <= unit_ * mu p)%Z) by (unfold mu; nia). assert (SM : (p_bits p + Z.of_N n <= 2 ^ 31 - 1)%Z) by (unfold room in L; lia).
  rewrite wrap_small by lia. pose proof (bits_good unit_ p (p_bits p + Z.of_N n)%Z I ltac:(lia) L BM) as X. rewrite BM, BV in X. exact X.
Qed.
Lemma ns_bits n : n <= 255 -> nsc unit_ (add_bits n) any.
Proof.
  intros B p I L. unfold add_bits. pose proof unit_pos. destruct (p_bitmode p) eqn:BM; [|apply (nsc_up unit_ (ret tt) any unit_pos (ns_ret tt any Logic.I) p I L)].
  destruct (p_bits_valid p) eqn:BV; [|apply (nsc_up unit_ (ret tt) any unit_pos (ns_ret tt any Logic.I) p I L)]. cbn [andb].
  assert (UT : U = true) by (destruct U eqn:UU; [reflexivity|destruct (v_free p I UU); congruence]). pose proof (unit_bits n ltac:(lia) UT) as UB. pose proof (v_bits p I).
  assert (MP : (0 <= unit_ * mu p)%Z) by (unfold mu; nia). assert (SM : (p_bits p + Z.of_N n <= 2 ^ 31 - 1)%Z) by (unfold room in L; lia).
  destruct (Z.ltb_spec (2 ^ 31 - 1) (p_bits p + Z.of_N n)) as [X|_]; [exfalso; lia|]. split; [|exact Logic.I].
  pose proof (bits_good unit_ p (p_bits p + Z.of_N n)%Z I ltac:(lia) L BM) as X. rewrite BM, BV in X. exact X.
Qed.
Lemma ns_zero : ns zero_bits any.
Proof.
  intros p I L. unfold zero_bits, upd_p. split; [|exact Logic.I]. destruct (_ && _) eqn:X; [|now apply good_refl]. apply andb_true_iff in X as (BM & BV).
  destruct I as [T EN LN C P S B R F]. set (q := set_bits _ _ _ _ p). assert (RM : room q = (room p + p_bits p)%Z) by (unfold room; cbn [q set_bits p_bits]; change (mu q) with (mu p); lia).
  split; [|split; [lia|split; [change (mu q) with (mu p); lia|congruence]]]. constructor; auto; [cbn; lia|lia].
Qed.
Definition deco_ok (d : deco) : Prop := forall lo hi, d_range d = Some (lo, hi) -> held lo /\ held hi.
Ltac up := apply (nsc_up _ _ _ unit_pos).
Lemma ns_args E f t d : deco_ok d -> nsc unit_ (deco_args E f t d) deco_ok.
Proof.
  intros DO. pose proof ns_take_number. pose proof ns_take_u32. pose proof ns_take_i64. pose proof ns_take_double. pose proof ns_poly. pose proof ns_spline. pose proof ns_skip.
  pose proof ns_expression. unfold deco_args.
  repeat match goal with |- nsc _ (if match_keyword t "pad" then _ else _) _ => fail 1 | |- nsc _ (if _ then _ else _) _ => match goal with |- nsc _ (if ?b then _ else _) _ => destruct b; [up; solve [nss]|] end end.
  destruct (match_keyword t "pad").
  { eapply nsc_bind0; [apply unit_pos|apply ns_take_u32|]. intros n B. eapply nsc_bind0; [apply unit_pos|apply ns_emit|]. intros _ _. eapply nsc_bind1; [apply unit_pos|now apply ns_pad|].
    intros _ _. now apply ns_ret. }
  up. apply ns_if; [ns1; ns1; ns1; apply ns_ret; intros lo hi X; injection X as <- <-; auto|].
  apply ns_if; [ns1; apply ns_ret; repeat match goal with |- context [match ?x with _ => _ end] => destruct x end; exact DO|]. nss.
Qed.
Lemma ns_decorator E f d : deco_ok d -> nsc unit_ (decorator E f d) deco_ok.
Proof.
  intros DO. pose proof ns_take_u32. pose proof ns_zero. unfold decorator. eapply nsc_bind0; [apply unit_pos|apply ns_cur|]. intros t T.
  eapply nsc_bind0; [apply unit_pos|apply ns_consume|]. intros _ _.
  repeat match goal with |- nsc _ (if ?b then _ else _) _ => destruct b; [up|] end.
  3: { ns1. eapply ns_bind; [instantiate (1 := any)|]; [|intros v _]; nss. }
  all: try solve [nss].
  eapply nsc_bind0; [apply unit_pos|apply ns_consume|]. intros _ _. eapply nsc_bind1; [apply unit_pos|now apply ns_args|]. intros d1 D1. nss.
Qed.
Lemma ns_decorators E f : forall d, deco_ok d -> ns (decorators E f d) deco_ok.
Proof.
  induction f as [|f IH]; intros d DO; cbn [decorators]; [apply ns_fuel|]. apply ns_at_gain; [discriminate| |nss].
  eapply nsc_bind1; [apply unit_pos|now apply ns_decorator|]. intros d1 D1. now apply IH.
Qed.

Lemma ns_shape ty d : deco_ok d -> ns (field_shape ty d) (fun r => deco_ok (fst r)).
Proof.
  intros DO. pose proof ns_take_u32. unfold field_shape. ns1. eapply ns_bind; [instantiate (1 := fun r => deco_ok (fst r))|].
  { apply ns_if; [|apply ns_ret; exact DO]. ns1. ns1. apply ns_if; [ns1; apply ns_ret; exact DO|]. ns1. ns1. apply ns_ret. exact DO. }
  intros (d1 & arr) D1. cbn [fst snd] in *. ns1. apply ns_if.
  - ns1. ns1. ns1. apply ns_if; [|apply ns_if; [|nss]]; destruct (prefix_ops _ _ _ _); nss.
  - apply ns_if; [|nss]. eapply ns_bind; [instantiate (1 := any); nss|]. intros u _. ns1. eapply ns_bind; [instantiate (1 := any); nss|]. intros m _. now apply ns_ret.
Qed.
Lemma ns_limits E op d : deco_ok d -> ns (match d_range d with Some (lo, hi) => emit_range_check E op lo hi | None => ret tt end) any.
Proof. intros DO. unfold deco_ok in DO. destruct (d_range d) as [(lo & hi)|]; [|nss]. destruct (DO _ _ eq_refl). now apply ns_range. Qed.
Lemma ns_const E ty d key v : deco_ok d -> ns (const_field E ty d key v) any.
Proof. intros DO. pose proof (fun op => ns_limits E op d DO) as LM. unfold const_field. eapply ns_bind; [instantiate (1 := any); nss|]. intros op _. ns1; [nss|]. ns1. apply LM. Qed.
Lemma ns_struct_field ty name d w key c : D = false -> ns (struct_field ty name d w key c) any.
Proof.
  intros DF. unfold struct_field. ns1. apply ns_if; [nss|]. do 4 (ns1; [nss|]). ns1. eapply ns_bind; [instantiate (1 := any)|intros ? ?; nss].
  intros p I L. destruct (append_with_prefix _ _ _ _ _) as [[(ss & o)|u]|] eqn:AP; [|split; [exact DF|]|exact Logic.I].
  - split; [apply beside_good; [auto|repeat split]|exact Logic.I].
  - eapply append_ub; eauto.
Qed.
Lemma ns_enum_field E d w key e : deco_ok d -> ns (enum_field E d w key e) any.
Proof. intros DO. pose proof (ns_limits E (en_type e) d DO) as LM. unfold enum_field. do 3 (ns1; [nss|]). ns1. exact LM. Qed.
Lemma ns_string d w key s : ns (string_field d w key s) any. Proof. unfold string_field. nss. Qed.
Lemma type_ident t : is_kind TIdentifier t = false -> type_name t = None.
Proof. intros K. unfold type_name, int_name, match_any, match_keyword. cbn [existsb]. rewrite K. reflexivity. Qed.
Lemma ns_basic E ty d w key : w <= 255 -> deco_ok d -> nsc (worth ty) (basic_field E ty d w key) any.
Proof.
  intros W DO. pose proof (fun op => ns_limits E op d DO) as LM. unfold basic_field. eapply nsc_bind0; [apply worth_pos|apply ns_get|]. intros bm _. cbv zeta.
  set (w' := if bm && (w =? 0) then match type_name ty with Some op => bit_width_of op | None => 0 end else w).
  assert (W' : w' <= 255).
  { unfold w'. destruct (_ && _); [|auto]. destruct (type_name ty) as [op|]; [|lia]. unfold bit_width_of. repeat match goal with |- context [match ?x with _ => _ end] => destruct x end; lia. }
  clearbody w'. destruct (0 <? w').
  - unfold worth. destruct (is_kind TIdentifier ty) eqn:K.
    + match goal with |- nsc _ (match ?x with _ => _ end) _ => destruct x as [op|] end; [|up; nss].
      eapply nsc_bind0; [apply unit_pos|apply ns_emit|]. intros _ _. eapply nsc_bind1; [apply unit_pos|now apply ns_bits|]. intros _ _. nss.
    + rewrite (type_ident _ K). change (ns (error ;; ret false) any). nss.
  - apply (nsc_up _ _ _ (worth_pos ty)). apply ns_if; [nss|]. destruct (type_name ty) as [op|]; [|nss].
    eapply ns_bind; [instantiate (1 := any)|intros; nss]. destruct (d_crc d) as [c|].
    + repeat match goal with |- ns (match ?x with _ => _ end) _ => destruct x end; nss.
    + apply ns_if; [nss|]. ns1. apply LM.
Qed.
Lemma ns_rest E d : deco_ok d -> ns (field_rest E d) any.
Proof.
  intros DO. pose proof ns_string. unfold field_rest. ns1. ns1. apply ns_if; [nss|]. ns1. apply ns_ident_gain. intros ty TY. pose proof (worth_pos ty) as WP.
  eapply nsc_bind0; [auto|apply ns_cur|]. intros nm NM. destruct (is_kind TSelf nm); [apply (nsc_up _ _ _ WP); nss|].
  eapply nsc_bind0; [auto|apply ns_consume|]. intros _ _. eapply nsc_bind0; [auto|instantiate (1 := any)|].
  { intros p I L. destruct (strtab_add _ _) as (fs & i). split; [apply beside_good; [auto|destruct (_ =? _); repeat split]|exact Logic.I]. }
  intros _ _. eapply nsc_bind0; [auto|apply ns_name|]. intros key _. eapply nsc_bind0; [auto|apply ns_at|]. intros colon _. eapply nsc_bind0; [auto|instantiate (1 := fun w => w <= 255)|].
  { apply ns_if; [|apply ns_ret; lia]. ns1. ns1. ns1. apply ns_ret. lia. }
  intros w W. eapply nsc_bind0; [auto|now apply ns_shape|]. intros (d1 & s) D1. cbn [fst snd] in *.
  eapply nsc_bind0; [auto|apply ns_when; nss|]. intros _ _. eapply nsc_bind0; [auto|apply ns_when; nss|]. intros _ _. eapply nsc_bind0; [auto|apply ns_emit|]. intros _ _.
  eapply nsc_bind1; [auto|instantiate (1 := any)|intros go _; nss]. destruct (d_const d1) as [v|].
  { apply (nsc_up _ _ _ WP). pose proof (ns_const E ty d1 key v D1). nss. }
  eapply nsc_bind0; [auto|apply ns_struct|]. intros sd SD. eapply nsc_bind0; [auto|apply ns_get|]. intros ed _.
  destruct sd as [c|]; [apply (nsc_up _ _ _ WP); apply ns_struct_field; apply SD; discriminate|].
  destruct ed as [e|]; [apply (nsc_up _ _ _ WP); pose proof (ns_enum_field E d1 w key e D1); nss|].
  destruct (match_keyword ty "string"); [apply (nsc_up _ _ _ WP); nss|]. now apply ns_basic.
Qed.
Lemma ns_docs f : ns (skip_docs f) any. Proof. induction f; cbn [skip_docs]; nss. Qed.
Lemma ns_case_value : ns case_value any. Proof. unfold case_value. nss. Qed.
Lemma ns_head : ns switch_head any. Proof. unfold switch_head. nss. Qed.
Lemma ns_patch js t : ns (patch_jumps js t) any. Proof. induction js as [|j js IH]; cbn [patch_jumps]; nss. Qed.
Lemma ns_tail loc cs js d : ns (switch_tail loc cs js d) any. Proof. pose proof ns_patch. unfold switch_tail. nss. Qed.
Lemma ns_stmt E f : ns (parse_field E f) any /\ ns (parse_if E f) any /\ ns (parse_block E f) any /\ ns (block_loop E f) any /\
  forall loc cs js d, ns (case_loop E f loc cs js d) any.
Proof.
  induction f as [|f (PF & PI & PB & BL & CL)]; [split; [|split; [|split; [|split]]]; intros; apply ns_fuel|].
  pose proof ns_docs. pose proof (ns_decorators E f deco0 ltac:(intros ? ? X; discriminate X)) as DC. pose proof (ns_rest E). pose proof ns_expression. pose proof ns_case_value. pose proof ns_head. pose proof ns_tail.
  split; [|split; [|split; [|split]]]; cbn [parse_field parse_if parse_block block_loop case_loop].
  - nss.
  - nss.
  - nss.
  - nss.
  - intros loc cs js d. nss.
Qed.
Lemma ns_block E f : ns (parse_block E f) any. Proof. apply ns_stmt. Qed.

(** ** Enums: the next value grows by one with every name *)
Definition nx {A} (b : Z) (m : par A) : Prop :=
  forall p, inv p -> p_err p = true \/ (b + mu p <= 2 ^ 62)%Z -> match m p with POk a q => good 0 p q | PUb u => bad u | PFuel => True end.
Lemma nx_bind {A B} b (m : par A) (k : A -> par B) Q : ns m Q -> sticky m -> (forall a, Q a -> nx b (k a)) -> nx b (pbind m k).
Proof.
  intros M S K p I L. unfold pbind. specialize (M p I (v_room p I)). specialize (S p). destruct (m p) as [a q|u|]; [|exact M|exact Logic.I]. destruct M as (G & QA).
  specialize (K a QA q (proj1 G)). assert (LQ : p_err q = true \/ (b + mu q <= 2 ^ 62)%Z) by (destruct L as [L|L]; [left; eapply S; eauto|right; destruct G as (_ & _ & G & _); lia]).
  specialize (K LQ). destruct (k a q) as [c r|u|]; auto. exact (good_trans 0 0 _ _ _ G K).
Qed.
Lemma mu_bound p : inv p -> (0 <= mu p <= 2 ^ 60 + 1)%Z.
Proof.
  intros I. rewrite mu_split. pose proof (v_len p I) as L. unfold lenN in L. pose proof (LemEnds.filter_len going (p_toks p)) as F. change (2 ^ 60) with 1152921504606846976 in L. destruct (going _); lia.
Qed.
Lemma nx_ns {A} b (m : par A) Q : ns m Q -> nx b m.
Proof. intros M p I _. specialize (M p I (v_room p I)). destruct (m p); auto. apply M. Qed.
Lemma nx_enum f : forall names vals next, nx next (enum_loop f names vals next).
Proof.
  induction f as [|f IH]; intros names vals next; [intros p I L; exact Logic.I|]. cbn [enum_loop]. intros p I L.
  change (match (if is_kind TRbrace (p_cur p) || is_kind TEof (p_cur p) || p_err p then ret vals else if is_kind TDoc (p_cur p) then advance ;; enum_loop f names vals next else
     consume TIdentifier ;;
      (let names' := fst (strtab_add names (ttext (p_cur p))) in
       when (lenN names' =? lenN names) error ;;
       let% eq := at_kind TEquals in
       let% v := if eq then advance ;; take_i64 else ret next in
       when (existsb (fun x => (snd x =? v)%Z) vals) error ;;
       if (v =? 2 ^ 63 - 1)%Z then undef UOverflow
       else
         let% comma := at_kind TComma in
         when comma advance ;;
         enum_loop f names' (vals ++ [(ttext (p_cur p), v)]) (v + 1))) p with POk a q => good 0 p q | PUb u => bad u | PFuel => True end).
  destruct (is_kind TRbrace (p_cur p) || is_kind TEof (p_cur p) || p_err p) eqn:C1; [now apply good_refl|].
  apply orb_false_iff in C1 as (C1 & ER). apply orb_false_iff in C1 as (_ & CE). destruct L as [L|L]; [congruence|].
  destruct (is_kind TDoc (p_cur p)); [apply (nx_bind next advance _ any); auto using ns_advance, st_advance|]. cbv zeta.
  set (names' := fst (strtab_add names (ttext (p_cur p)))). set (nm := ttext (p_cur p)).
  pose proof (mu_bound p I) as MB.
  match goal with |- match (consume TIdentifier ;; ?k) p with _ => _ end => assert (K : nx (next + 1) k) end.
  { eapply nx_bind; [apply ns_when, ns_error|stk|intros _ _]. eapply nx_bind; [apply ns_at|stk|intros eq _].
    eapply (nx_bind _ _ _ (fun v => v = next \/ (- 2 ^ 60 < v < 2 ^ 60)%Z)); [|stk|].
    { apply ns_if; [|apply ns_ret; auto]. eapply ns_bind; [apply ns_advance|intros _ _]. eapply ns_weak; [apply ns_take_i64|]. intros z Z. auto. }
    intros v V. eapply nx_bind; [apply ns_when, ns_error|stk|intros _ _]. destruct (Z.eqb_spec v (2 ^ 63 - 1)) as [X|_]; [exfalso; lia|].
    eapply nx_bind; [apply ns_at|stk|intros comma _]. eapply nx_bind; [apply ns_when, ns_advance|stk|intros _ _]. intros q IQ LQ. apply IH; [exact IQ|].
    pose proof (mu_bound q IQ). destruct LQ as [LQ|LQ]; [auto|]. right. destruct V as [->|V]; lia. }
  revert K. match goal with |- nx _ ?k -> _ => generalize k end. intros k K.
  unfold pbind at 1, consume. unfold pbind at 1, at_kind, get. destruct (is_kind TIdentifier (p_cur p)) eqn:KK.
  - destruct (advance_good p I) as (q & -> & G & GG). assert (GT : going (p_cur p) = true) by (unfold going; rewrite CE; reflexivity). destruct (GG GT) as (MQ & _).
    specialize (K q (proj1 G) ltac:(right; lia)). destruct (k q); auto. exact (good_trans 0 0 _ _ _ G K).
  - pose proof (ns_error p I (v_room p I)) as X. unfold error, upd_p in *. destruct X as (G & _). specialize (K _ (proj1 G) ltac:(left; reflexivity)).
    destruct (k (set_err p)); auto.
Qed.

Lemma ns_enum f : ns (let% vals := enum_loop f [] [] 0 in ret vals) any.
Proof.
  intros p I L. unfold pbind. pose proof (nx_enum f [] [] 0 p I) as X. pose proof (mu_bound p I). specialize (X ltac:(right; lia)).
  destruct (enum_loop f [] [] 0 p); auto. split; [exact X|exact Logic.I].
Qed.
Lemma ns_enum_loop f : ns (enum_loop f [] [] 0) any.
Proof. intros p I L. pose proof (ns_enum f p I L) as X. unfold pbind in X. destruct (enum_loop f [] [] 0 p); exact X. Qed.
Lemma ns_parse_enum f : ns (parse_enum f) any.
Proof.
  pose proof (ns_enum_loop f). unfold parse_enum. ns1. ns1. ns1. ns1; [nss|]. ns1. eapply ns_bind; [instantiate (1 := any)|intros ? ?].
  - apply ns_if; [|nss]. ns1. ns1. ns1. nss.
  - ns1. ns1. ns1. apply ns_upd; [intros p; repeat split|exact Logic.I].
Qed.

(** ** The top level: no bits are being counted there *)
Definition tns {A} (m : par A) : Prop :=
  forall p, inv p -> p_bitmode p = false -> p_bits p = 0%Z -> match m p with POk a q => inv q /\ p_bitmode q = false /\ p_bits q = 0%Z | PUb u => bad u | PFuel => True end.
Lemma tns_ns {A} (m : par A) Q : ns m Q -> tns m.
Proof.
  intros M p I B Z. specialize (M p I (v_room p I)). destruct (m p); auto. destruct M as ((IQ & _ & _ & X) & _). destruct (X B) as (Y & W). split; [auto|]. split; [auto|congruence].
Qed.
Lemma tns_bind {A B} (m : par A) (k : A -> par B) Q : ns m Q -> (forall a, Q a -> tns (k a)) -> tns (pbind m k).
Proof.
  intros M K p I B0 Z. unfold pbind. specialize (M p I (v_room p I)). destruct (m p) as [a q|u|]; auto. destruct M as ((IQ & _ & _ & X) & QA). destruct (X B0) as (Y & W). apply K; auto. congruence.
Qed.
Lemma tns_then {A B} (m : par A) (k : A -> par B) : tns m -> (forall a, tns (k a)) -> tns (pbind m k).
Proof. intros M K p I B0 Z. unfold pbind. specialize (M p I B0 Z). destruct (m p) as [a q|u|]; auto. destruct M as (IQ & X & Y). apply K; auto. Qed.
Lemma tns_struct E f : D = false -> tns (parse_struct E f).
Proof.
  intros DF. unfold parse_struct. eapply tns_bind; [apply ns_cur|intros name _]. eapply tns_bind; [apply ns_consume|intros _ _]. eapply tns_bind; [apply ns_get|intros dup _].
  eapply tns_bind; [apply ns_when, ns_error|intros _ _]. intros p I B Z. unfold pbind at 1, get at 1. unfold pbind at 1, upd_p at 1.
  match goal with |- match (pbind _ _) ?q with _ => _ end => set (p1 := q) end.
  assert (MU1 : mu p1 = mu p) by reflexivity.
  assert (I1 : inv p1) by (destruct I as [T EN LN C P S Bt R F]; constructor; auto; intros X; congruence).
  (* entering an unaligned structure *)
  match goal with |- match (pbind ?w _) p1 with _ => _ end => assert (W : match w p1 with POk _ q => inv q /\ (p_bits q = 0)%Z /\ (mu q <= mu p)%Z | _ => False end) end.
  { destruct (p_unaligned p) eqn:UN; [|cbn; split; [exact I1|split; [exact Z|lia]]].
    unfold when, pbind, emit, upd_p. set (q := set_bits _ _ _ _ _). split; [|split; [reflexivity|change (mu q) with (mu p); lia]].
    destruct I1 as [T EN LN C P S Bt R F]. constructor; auto; [cbn; lia|change (room q) with (2 ^ 31 - 1 - 0 - unit_ * mu p1)%Z; unfold room in R; lia|].
    intros X. destruct (v_free p I X). congruence. }
  unfold pbind at 1. match goal with |- match match ?w p1 with _ => _ end with _ => _ end => destruct (w p1) as [? p2|?|]; [|destruct W|destruct W] end. destruct W as (I2 & Z2 & M2).
  unfold pbind at 1. pose proof (ns_block E f p2 I2 (v_room _ I2)) as BK. destruct (parse_block E f p2) as [? p3|u|]; [|exact BK|exact Logic.I]. destruct BK as ((I3 & R3 & M3 & _) & _).
  unfold pbind at 1, get at 1. unfold pbind at 1.
  match goal with |- match match ?w p3 with _ => _ end with _ => _ end => assert (W : ns w any) by (apply ns_when; eapply ns_bind; [apply ns_when, ns_error|intros _ _; apply ns_emit]);
    specialize (W p3 I3 (v_room _ I3)); destruct (w p3) as [? p4|u|]; [|exact W|exact Logic.I] end. destruct W as ((I4 & R4 & M4 & _) & _).
  unfold upd_p. set (q := set_bits _ _ _ _ _). split; [|split; [exact B|exact Z]].
  destruct I as [T EN LN C P S Bt R F]. destruct I4 as [T4 EN4 LN4 C4 P4 S4 Bt4 R4' F4]. constructor; auto.
  - intros X. congruence.
  - change (room q) with (2 ^ 31 - 1 - p_bits p - unit_ * mu p4)%Z. unfold room in R. pose proof unit_pos. nia.
  - intros X. split; [apply F4; auto|apply F; auto].
Qed.
Lemma ns_parse_packet E f : ns (parse_packet E f) any.
Proof.
  pose proof (ns_block E f). assert (FF : ns (upd_p (fun p => set_struct (p_sname p) [] p)) any) by (apply ns_upd; [intros p; repeat split|exact Logic.I]).
  unfold parse_packet. ns1. ns1. ns1. ns1; [nss|]. ns1. ns1. ns1. eapply ns_bind; [instantiate (1 := any)|].
  - apply ns_if; nss.
  - intros _ _. nss.
Qed.

Variable E : env.
(** every file there is to read *)
Hypothesis files : forall path src toks, e_read E path = Some src -> lex src = Some toks -> Forall fine toks /\ lenN toks < 2 ^ 60 /\ (unit_ * Z.of_N (lenN toks) <= 2 ^ 31 - 1 - unit_)%Z.
Lemma start_inv p toks : inv p -> p_bits p = 0%Z -> LemEnds.ended toks -> Forall fine toks /\ lenN toks < 2 ^ 60 /\ (unit_ * Z.of_N (lenN toks) <= 2 ^ 31 - 1 - unit_)%Z ->
  forall a b c, inv (set_import a b c (set_tok toks (p_cur p) (p_prev p) p)).
Proof.
  intros [T EN LN C P S B R F] Z EE (FT & LT & UT) a b c. constructor; auto. set (q := set_import _ _ _ _). change (room q) with (2 ^ 31 - 1 - p_bits p - unit_ * mu q)%Z. rewrite Z.
  pose proof unit_pos. assert (MQ : (mu q <= Z.of_N (lenN toks) + 1)%Z).
  { rewrite mu_split. cbn [q set_import set_tok p_toks]. pose proof (LemEnds.filter_len going toks). unfold lenN. destruct (going _); lia. }
  nia.
Qed.
Lemma tns_top f : tns (top_level E f) /\ tns (top_decorators E f) /\ tns (parse_import E f).
Proof.
  induction f as [|f (A & B & C)]; (split; [|split]); try (intros p I B0 Z; exact Logic.I).
  - cbn [top_level]. eapply tns_bind; [apply ns_cur|intros t T]. eapply tns_bind; [apply ns_get|intros err _].
    destruct (is_kind TEof t || err); [eapply tns_ns; nss|]. destruct (is_kind TDoc t); [eapply tns_bind; [apply ns_advance|intros _ _; exact A]|].
    apply tns_then; [exact B|intros _]. eapply tns_bind; [apply ns_kind|intros k K]. apply tns_then; [|intros _; exact A].
    destruct k; try (eapply tns_ns; solve [nss]).
    + eapply tns_bind; [apply ns_advance|intros _ _]. apply tns_struct. destruct D eqn:DD; [|reflexivity]. destruct K as (_ & K). rewrite DD in K. destruct (K eq_refl). congruence.
    + eapply tns_bind; [apply ns_get|intros n _]. eapply tns_bind; [apply ns_when, ns_error|intros _ _]. eapply tns_bind; [apply (ns_upd _ any); [intros p; repeat split|exact Logic.I]|intros _ _].
      eapply tns_bind; [apply ns_advance|intros _ _]. eapply tns_ns. apply ns_parse_packet.
    + eapply tns_bind; [apply ns_advance|intros _ _]. eapply tns_ns. apply ns_parse_enum.
  - cbn [top_decorators]. eapply tns_bind; [apply ns_at|intros b _]. destruct (negb b); [eapply tns_ns; nss|]. eapply tns_bind; [apply ns_advance|intros _ _].
    eapply tns_bind; [apply ns_cur|intros t T]. eapply tns_bind; [apply ns_consume|intros _ _]. apply tns_then; [|intros _; exact B]. pose proof ns_take_u32. pose proof ns_skip.
    destruct (match_keyword t "version"); [eapply tns_ns; nss|]. destruct (match_keyword t "import"); [exact C|].
    destruct (match_keyword t "big_endian"); [eapply tns_ns; nss|]. destruct (_ || _); [eapply tns_ns; nss|]. destruct (match_keyword t "unaligned_bytes") eqn:UN; [|eapply tns_ns; nss].
    intros p I B0 Z. cbn. split; [|auto]. destruct I as [T1 EN LN C1 P S Bt R F]. constructor; auto. intros X. destruct T as ((_ & _ & T & _) & _). rewrite (T X) in UN. discriminate UN.
  - cbn [parse_import]. eapply tns_bind; [apply ns_consume|intros _ _]. eapply tns_bind; [apply ns_cur|intros t T]. eapply tns_bind; [apply ns_consume|intros _ _].
    eapply tns_bind; [apply ns_consume|intros _ _]. destruct (256 <=? lenN (ttext t)); [eapply tns_ns; nss|]. intros p I B0 Z. unfold pbind at 1, get at 1. cbv zeta.
    set (full := e_canon E _). destruct (existsb _ _); [cbn; auto|]. unfold pbind at 1, upd_p at 1. set (p1 := set_import _ _ _ p).
    assert (I1 : inv p1) by (apply (beside_good p p1 I); repeat split).
    destruct (e_read E full) as [src|] eqn:RD; [|exact (tns_ns _ _ ns_error p1 I1 B0 Z)]. destruct (lex src) as [toks|] eqn:LX; [|exact Logic.I].
    unfold pbind at 1, upd_p at 1. set (p2 := set_import _ _ _ _). assert (I2 : inv p2) by (apply start_inv; auto; [eapply LemEnds.lex_ended; eauto|eapply files; eauto]).
    assert (TT : tns (advance ;; top_level E f)) by (eapply tns_bind; [apply ns_advance|intros _ _; exact A]). specialize (TT p2 I2 B0 Z). unfold pbind in TT. unfold pbind at 1.
    destruct (advance p2) as [? p3|u|]; [|exact TT|exact Logic.I]. unfold pbind at 1. destruct (top_level E f p3) as [? p4|u|]; [|exact TT|exact Logic.I]. destruct TT as (I4 & B4 & Z4).
    unfold upd_p. set (q := set_import _ _ _ _). split; [|split; [exact B4|exact Z4]]. destruct I as [T0 EN LN C0 P S Bt R F]. destruct I4 as [T4 EN4 LN4 C4 P4 S4 Bt4 R4 F4]. constructor; auto.
    change (room q) with (2 ^ 31 - 1 - p_bits p4 - unit_ * mu p)%Z. unfold room in R. rewrite Z4. rewrite Z in R. exact R.
Qed.
Lemma calm_file f path u : compile_file E f path = CUndef u -> bad u.
Proof.
  unfold compile_file. destruct (e_read E _) as [src|] eqn:RD; [|discriminate]. unfold parse_file. destruct (lex src) as [toks|] eqn:LX; [|discriminate].
  assert (TT : tns (advance ;; top_level E f)) by (eapply tns_bind; [apply ns_advance|intros _ _; apply tns_top]).
  specialize (TT (parser0 (e_canon E path) toks)). assert (H0 : held token0).
  { split; [|discriminate]. split; [exists 0%Z; split; [reflexivity|split; reflexivity]|]. split; [intros _; cbn; lia|]. split; [reflexivity|split; discriminate]. }
  destruct (files _ _ _ RD LX) as (FT & LT & UT). assert (I0 : inv (parser0 (e_canon E path) toks)).
  { pose proof unit_pos. set (q := parser0 _ _). constructor; [exact FT|eapply LemEnds.lex_ended; eauto|exact LT|exact H0|exact H0|reflexivity|change (0 <= 0)%Z; lia| |split; reflexivity].
     change (room q) with (2 ^ 31 - 1 - 0 - unit_ * mu q)%Z.
    assert (MQ : (mu q <= Z.of_N (lenN toks))%Z) by (rewrite mu_split; change (going (p_cur q)) with false; change (p_toks q) with toks; pose proof (LemEnds.filter_len going toks); unfold lenN; lia). nia. }
  specialize (TT I0 eq_refl eq_refl). destruct ((advance ;; top_level E f) _) as [? q|u'|]; [|intros X; injection X as <-; exact TT|discriminate].
  destruct (p_err q); [discriminate|]. destruct (optimize_strings _ _) as [(x1 & x2)|]; discriminate.
Qed.
End Calm.
