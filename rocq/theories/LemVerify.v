(** Lemmas on the verifier. *)
From Verif Require Import Base SpecBytes LemBase ModelWord ModelVM LemAct ModelVerify SpecVerify.
Ltac Zify.zify_post_hook ::= Z.div_mod_to_equations.

Lemma u32_small x : x < 2 ^ 32 -> u32 x = x.
Proof. intros. unfold u32. now apply N.mod_small. Qed.

(** The size table and the verifier's switch agree on every byte *)
Lemma size_of_eq op : op < 256 ->
  size_of op = if (op =? 0x51) || (op =? 0x53) then Some 7 else instr_len op.
Proof.
  intros H.
  assert (A : forallb (fun n => let op := N.of_nat n in
    match size_of op, (if (op =? 0x51) || (op =? 0x53) then Some 7 else instr_len op) with
    | Some a, Some b => a =? b | None, None => true | _, _ => false end) (seq 0 256) = true)
    by (vm_compute; reflexivity).
  rewrite forallb_forall in A. specialize (A (N.to_nat op)). cbv zeta in A. rewrite N2Nat.id in A.
  specialize (A ltac:(apply in_seq; lia)).
  destruct (size_of op), (if (op =? 0x51) || (op =? 0x53) then Some 7 else instr_len op); try discriminate; auto.
  apply N.eqb_eq in A. now subst.
Qed.
Lemma size_of_bound op n : size_of op = Some n -> 1 <= n <= 20.
Proof.
  unfold size_of. destruct (find _ sizes) as [[[a b] m]|] eqn:E; [|discriminate].
  intros X. injection X as <-. apply find_some in E. destruct E as [I _].
  assert (A : forallb (fun x => (1 <=? snd x) && (snd x <=? 20)) sizes = true) by reflexivity.
  rewrite forallb_forall in A. specialize (A _ I). cbn [snd] in A. lia.
Qed.

Section Verify.
Context (bc : list N) (W : wf_bytes bc) (L : lenN bc < 2 ^ 32 - 32).

Lemma slice_word p n : p + n <= lenN bc ->
  (let! l := slice UIl bc p n in Ok (il_comb l 0)) = Ok (word bc p n).
Proof using W. clear L.
  intros HP. rewrite slice_eq. destruct (N.leb_spec (p + n) (lenN bc)); [|lia]. cbn [bindR].
  rewrite il_comb_val by now apply wf_sub. now rewrite N.pow_0_r, N.mul_1_r.
Qed.
Lemma bc_u32_ok p : p + 4 <= lenN bc -> bc_u32 bc p = Ok (word bc p 4).
Proof using W. clear L. apply slice_word. Qed.
Lemma bc_u16_ok p : p + 2 <= lenN bc -> bc_u16 bc p = Ok (word bc p 2).
Proof using W. clear L. apply slice_word. Qed.
Lemma bc_u64_ok p : p + 8 <= lenN bc -> bc_u64 bc p = Ok (word bc p 8).
Proof using W. clear L. apply slice_word. Qed.

Lemma word_bound p n : word bc p n < 2 ^ (8 * n).
Proof using W. clear L.
  unfold word. pose proof (wf_sub bc p n W) as X. apply (val_of_bound LE) in X.
  eapply N.lt_le_trans; [exact X|]. change 256 with (2 ^ 8). rewrite <- N.pow_mul_r.
  apply N.pow_le_mono_r; [lia|]. unfold sub. assert (lenN (firstn (N.to_nat n) (skipn (N.to_nat p) bc)) <= n).
  { unfold lenN. pose proof (firstn_le_length (N.to_nat n) (skipn (N.to_nat p) bc)). lia. }
  lia.
Qed.

Lemma target_bad_spec base p : target_bad (lenN bc) base (word bc p 4) = false <-> inside bc base p.
Proof using W. clear L.
  unfold target_bad, inside, offset, toS. pose proof (word_bound p 4) as B.
  change (2 ^ (8 * 4 - 1)) with (2 ^ 31). change (2 ^ Z.of_N (8 * 4))%Z with (2 ^ 32)%Z.
  change (2 ^ (8 * 4)) with (2 ^ 32) in B. change (2 ^ 31)%Z with (Z.of_N (2 ^ 31)).
  destruct (N.ltb_spec (word bc p 4) (2 ^ 31)), (Z.ltb_spec (Z.of_N (word bc p 4)) (Z.of_N (2 ^ 31))); lia.
Qed.

Lemma cases_spec base start n : forall i, start + 6 + 12 * (i + N.of_nat n) <= lenN bc ->
  exists b, cases_bad bc (lenN bc) base start i n = Ok b /\
  (b = false <-> forall j, i <= j < i + N.of_nat n -> inside bc base (start + 6 + 12 * j + 8)).
Proof using W. clear L.
  induction n as [|n IH]; intros i H.
  - exists false. split; [reflexivity|]. split; [|reflexivity]. intros _ j Hj. lia.
  - cbn [cases_bad]. replace (start + 6 + i * 12 + 8) with (start + 6 + 12 * i + 8) by lia.
    rewrite bc_u32_ok by lia. cbn [bindR].
    destruct (target_bad _ _ _) eqn:T.
    + exists true. split; [reflexivity|]. split; [discriminate|]. intros X.
      specialize (X i ltac:(lia)). apply target_bad_spec in X. congruence.
    + apply target_bad_spec in T. destruct (IH (i + 1)) as (b & E & S); [lia|]. exists b. split; [exact E|].
      rewrite S. split; intros X j Hj.
      * destruct (N.eq_dec j i) as [->|]; [exact T|]. apply X. lia.
      * apply X. lia.
Qed.
Lemma entries_spec base start n : forall i, start + 20 + 4 * (i + N.of_nat n) <= lenN bc ->
  exists b, entries_bad bc (lenN bc) base start i n = Ok b /\
  (b = false <-> forall j, i <= j < i + N.of_nat n -> inside bc base (start + 20 + 4 * j)).
Proof using W. clear L.
  induction n as [|n IH]; intros i H.
  - exists false. split; [reflexivity|]. split; [|reflexivity]. intros _ j Hj. lia.
  - cbn [entries_bad]. replace (start + 20 + i * 4) with (start + 20 + 4 * i) by lia.
    rewrite bc_u32_ok by lia. cbn [bindR].
    destruct (target_bad _ _ _) eqn:T.
    + exists true. split; [reflexivity|]. split; [discriminate|]. intros X.
      specialize (X i ltac:(lia)). apply target_bad_spec in X. congruence.
    + apply target_bad_spec in T. destruct (IH (i + 1)) as (b & E & S); [lia|]. exists b. split; [exact E|].
      rewrite S. split; intros X j Hj.
      * destruct (N.eq_dec j i) as [->|]; [exact T|]. apply X. lia.
      * apply X. lia.
Qed.

Lemma check_switch_spec p : p < lenN bc -> exists r, check_switch bc (lenN bc) p = Ok r /\
  (forall e, r = Some e -> e = EOob) /\ (r = None <-> p + 7 <= lenN bc /\ good_switch bc p).
Proof using W L.
  intros HP. unfold check_switch, good_switch. rewrite (u32_small (p + 7)) by lia.
  destruct (N.ltb_spec (lenN bc) (p + 7)).
  { eexists. split; [reflexivity|]. split; [intros e X; now injection X as <-|]. split; [discriminate|lia]. }
  rewrite bc_u32_ok by lia. cbn [bindR]. cbv zeta. fold (table_at bc p).
  change (u32 (p + 7 + word bc (p + 3) 4)) with (table_at bc p).
  set (t := table_at bc p) in *.
  assert (BAD : forall (P : Prop), (P -> False) -> exists r, @Ok (option err) (Some EOob) = Ok r /\
    (forall e, r = Some e -> e = EOob) /\ (r = None <-> p + 7 <= lenN bc /\ P)).
  { intros P NP. eexists. split; [reflexivity|]. split; [intros e X; now injection X as <-|].
    split; [discriminate|]. intros [_ X]. elim (NP X). }
  destruct (N.ltb_spec (lenN bc) t); [apply BAD; lia|].
  destruct (N.ltb_spec (lenN bc) (t + 6)); [apply BAD; lia|].
  rewrite bc_u16_ok by lia. cbn [bindR].
  pose proof (word_bound t 2) as B. change (2 ^ (8 * 2)) with 65536 in B.
  rewrite u32_small by (change (2 ^ 32) with 4294967296; lia).
  destruct (N.ltb_spec (lenN bc) (t + (6 + word bc t 2 * 12))); [apply BAD; lia|].
  rewrite bc_u32_ok by lia. cbn [bindR].
  destruct (target_bad _ _ _) eqn:T.
  { apply BAD. intros (_ & X & _). apply target_bad_spec in X. congruence. }
  apply target_bad_spec in T.
  destruct (cases_spec (p + 7) t (N.to_nat (word bc t 2)) 0) as (b & E & S); [lia|].
  rewrite E. cbn [bindR]. destruct b.
  - apply BAD. intros (_ & _ & X). assert (true = false) by (apply S; intros j Hj; apply X; lia). discriminate.
  - eexists. split; [reflexivity|]. split; [discriminate|]. split; [|reflexivity]. intros _. split; [lia|].
    split; [lia|]. split; [exact T|]. intros i Hi. apply (proj1 S eq_refl). lia.
Qed.

(** The greatest value of the dense switch at [p] is below its least *)
Definition inverted (p : N) : Prop :=
  p + 7 <= lenN bc /\ table_at bc p + 20 <= lenN bc /\
  word bc (table_at bc p + 8) 8 < word bc (table_at bc p) 8.

Lemma check_table_spec p : p < lenN bc -> exists r, check_table bc (lenN bc) p = Ok r /\
  (forall e, r = Some e -> (e = EOob /\ ~ inverted p) \/ (e = EValidation /\ inverted p)) /\
  (r = None <-> p + 7 <= lenN bc /\ good_table bc p).
Proof using W L.
  intros HP. unfold check_table, good_table, full_range, inverted. rewrite (u32_small (p + 7)) by lia.
  destruct (N.ltb_spec (lenN bc) (p + 7)).
  { eexists. split; [reflexivity|]. split; [intros e X; injection X as <-; left; split; [reflexivity|lia]|]. split; [discriminate|lia]. }
  rewrite bc_u32_ok by lia. cbn [bindR]. cbv zeta.
  change (u32 (p + 7 + word bc (p + 3) 4)) with (table_at bc p).
  set (t := table_at bc p) in *.
  set (I := p + 7 <= lenN bc /\ t + 20 <= lenN bc /\ word bc (t + 8) 8 < word bc t 8).
  assert (BAD : forall (P : Prop), ~ I -> (P -> False) -> exists r, @Ok (option err) (Some EOob) = Ok r /\
    (forall e, r = Some e -> (e = EOob /\ ~ I) \/ (e = EValidation /\ I)) /\ (r = None <-> p + 7 <= lenN bc /\ P)).
  { intros P V NP. eexists. split; [reflexivity|]. split; [intros e' X; injection X as <-; left; auto|].
    split; [discriminate|]. intros [_ X]. elim (NP X). }
  destruct (N.ltb_spec (lenN bc) t); [apply BAD; unfold I; lia|].
  destruct (N.ltb_spec (lenN bc) (t + 20)); [apply BAD; unfold I; lia|].
  rewrite bc_u64_ok by lia. cbn [bindR]. rewrite bc_u64_ok by lia. cbn [bindR].
  pose proof (word_bound t 8) as B1. pose proof (word_bound (t + 8) 8) as B2.
  change (2 ^ (8 * 8)) with (2 ^ 64) in B1, B2.
  set (mn := word bc t 8) in *. set (mx := word bc (t + 8) 8) in *.
  destruct (N.ltb_spec mx mn); [eexists; split; [reflexivity|]; split; [intros e X; injection X as <-; right; split; [reflexivity|unfold I; lia]|]; split; [discriminate|lia]|].
  assert (C : (mx - mn + 1) mod 2 ^ 64 = if mx - mn =? 2 ^ 64 - 1 then 0 else mx - mn + 1).
  { destruct (N.eqb_spec (mx - mn) (2 ^ 64 - 1)) as [->|]; [reflexivity|]. apply N.mod_small. lia. }
  rewrite C.
  destruct (N.eqb_spec (mx - mn) (2 ^ 64 - 1)) as [FR|FR].
  - change (4294967295 <? 0) with false. change (4294967295 <? 20 + 0 * 4) with false. cbv iota.
    destruct (N.ltb_spec (lenN bc) (t + (20 + 0 * 4))); [lia|].
    rewrite bc_u32_ok by lia. cbn [bindR].
    destruct (target_bad _ _ _) eqn:T.
    { apply BAD; [unfold I; lia|]. intros (_ & X & _). apply target_bad_spec in X. congruence. }
    apply target_bad_spec in T. cbn [N.to_nat entries_bad bindR].
    eexists. split; [reflexivity|]. split; [discriminate|]. split; [|reflexivity]. intros _.
    split; [lia|]. split; [lia|]. split; [exact T|]. split; [lia|]. now left.
  - destruct (N.ltb_spec 4294967295 (mx - mn + 1)).
    { apply BAD; [unfold I; lia|]. intros (_ & _ & _ & [X|[X _]]); lia. }
    destruct (N.ltb_spec 4294967295 (20 + (mx - mn + 1) * 4)).
    { apply BAD; [unfold I; lia|]. intros (_ & _ & _ & [X|[X _]]); lia. }
    destruct (N.ltb_spec (lenN bc) (t + (20 + (mx - mn + 1) * 4))).
    { apply BAD; [unfold I; lia|]. intros (_ & _ & _ & [X|[X _]]); lia. }
    rewrite bc_u32_ok by lia. cbn [bindR].
    destruct (target_bad _ _ _) eqn:T.
    { apply BAD; [unfold I; lia|]. intros (_ & X & _). apply target_bad_spec in X. congruence. }
    apply target_bad_spec in T.
    destruct (entries_spec (p + 7) t (N.to_nat (mx - mn + 1)) 0) as (b & E & S); [lia|].
    rewrite E. cbn [bindR]. destruct b.
    + apply BAD; [unfold I; lia|]. intros (_ & _ & _ & [X|[_ X]]); [lia|].
      assert (true = false); [|discriminate]. apply S. intros j Hj. specialize (X (mn + j) ltac:(lia)).
      now replace (mn + j - mn) with j in X by lia.
    + eexists. split; [reflexivity|]. split; [discriminate|]. split; [|reflexivity]. intros _.
      split; [lia|]. split; [lia|]. split; [exact T|]. split; [lia|]. right. split; [lia|].
      intros i Hi. apply (proj1 S eq_refl). lia.
Qed.

Lemma step_spec p : p < lenN bc -> exists r, verify_step bc (lenN bc) p = Ok r /\
  match r with
  | VRet e => (forall n, ~ good_instr bc p n) /\
      ((e = EInvalidOp /\ size_of (nthN bc p) = None) \/
       (e = EValidation /\ empty_table bc p) \/
       (e = EOob /\ size_of (nthN bc p) <> None /\ ~ empty_table bc p))
  | VGo q => exists n, q = p + n /\ good_instr bc p n
  end.
Proof using W L.
  intros HP. unfold verify_step. rewrite mem_eq. destruct (N.ltb_spec p (lenN bc)); [|lia]. cbn [bindR].
  pose proof (wf_nthN bc p W) as HB. unfold empty_table. fold (inverted p). set (op := nthN bc p) in *.
  pose proof (size_of_eq op HB) as SZ.
  assert (FIN : forall n, size_of op = Some n ->
    (op = 0x51 -> good_switch bc p) -> (op = 0x53 -> good_table bc p) ->
    exists r, finish bc (lenN bc) p op n = Ok r /\
      match r with
      | VRet e => (forall n, ~ good_instr bc p n) /\
          ((e = EInvalidOp /\ size_of op = None) \/
           (e = EValidation /\ op = 0x53 /\ inverted p) \/
           (e = EOob /\ size_of op <> None /\ ~ (op = 0x53 /\ inverted p)))
      | VGo q => exists n, q = p + n /\ good_instr bc p n
      end).
  { intros n SO HS HT. pose proof (size_of_bound _ _ SO) as NB. unfold finish.
    rewrite u32_small by lia.
    assert (NI : ~ (op = 0x53 /\ inverted p)).
    { intros [X (_ & _ & Y)]. destruct (HT X) as (Z & _). lia. }
    assert (NS : size_of op <> None) by (rewrite SO; discriminate).
    destruct (N.ltb_spec (lenN bc) (p + n)).
    { eexists. split; [reflexivity|]. split; [|right; right; auto].
      intros m (X & Y & _). fold op in X. rewrite SO in X. injection X as ->. lia. }
    destruct ((op =? 82) || (op =? 80)) eqn:J.
    - assert (n = 5).
      { assert (size_of op = Some 5). { destruct (N.eqb_spec op 82) as [->|]; [reflexivity|].
          destruct (N.eqb_spec op 80) as [->|]; [reflexivity|discriminate]. } congruence. }
      subst n. rewrite bc_u32_ok by lia. cbn [bindR]. destruct (target_bad _ _ _) eqn:T.
      + eexists. split; [reflexivity|]. split; [|right; right; auto]. intros m (_ & _ & X & _). fold op in X.
        assert (I : inside bc (p + 5) (p + 1)) by (apply X; lia). apply target_bad_spec in I. congruence.
      + apply target_bad_spec in T. eexists. split; [reflexivity|]. exists 5. split; [reflexivity|].
        split; [exact SO|]. split; [lia|]. split; [intros _; exact T|]. split; [exact HS|exact HT].
    - eexists. split; [reflexivity|]. exists n. split; [reflexivity|].
      split; [exact SO|]. split; [lia|]. split; [fold op; lia|]. split; [exact HS|exact HT]. }
  destruct (N.eqb_spec op 0x51) as [E|NE].
  { rewrite E in SZ. cbn [N.eqb Pos.eqb orb] in SZ. destruct (check_switch_spec p HP) as (r & ER & V & S). rewrite ER. cbn [bindR].
    destruct r as [e|].
    - eexists. split; [reflexivity|]. split.
      + intros n (X1 & X2 & _ & X3 & _). fold op in X1. rewrite E, SZ in X1. injection X1 as <-.
        assert (Some e = None) by (apply S; split; [lia|apply X3; exact E]). discriminate.
      + right. right. split; [now apply V|]. rewrite E, SZ. split; [discriminate|]. intros [X _]. discriminate.
    - apply FIN; [rewrite E; exact SZ|intros _; now apply S|rewrite E; discriminate]. }
  destruct (N.eqb_spec op 0x53) as [E|NE2].
  { rewrite E in SZ. cbn [N.eqb Pos.eqb orb] in SZ. destruct (check_table_spec p HP) as (r & ER & V & S). rewrite ER. cbn [bindR].
    destruct r as [e|].
    - eexists. split; [reflexivity|]. split.
      + intros n (X1 & X2 & _ & _ & X3). fold op in X1. rewrite E, SZ in X1. injection X1 as <-.
        assert (Some e = None) by (apply S; split; [lia|apply X3; exact E]). discriminate.
      + right. destruct (V _ eq_refl) as [[-> I]|[-> I]]; [right|left; auto].
        split; [reflexivity|]. split; [rewrite E, SZ; discriminate|]. intros [_ X]. now apply I.
    - apply FIN; [rewrite E; exact SZ|rewrite E; discriminate|intros _; now apply S]. }
  cbn [orb] in SZ. destruct (instr_len op) as [n|] eqn:EI.
  - apply FIN; [exact SZ|intros; lia|intros; lia].
  - eexists. split; [reflexivity|]. split; [|left; auto].
    intros n (X & _). fold op in X. congruence.
Qed.

Lemma instrs_le p l : instrs bc p l -> p <= lenN bc.
Proof using. clear L W. induction 1; [lia|]. destruct H as (_ & X & _). lia. Qed.

Lemma loop_spec fuel : forall p, p <= lenN bc -> lenN bc - p < N.of_nat fuel ->
  exists e, verify_loop fuel bc (lenN bc) p = Verdict e /\
  ((e = EOk /\ exists l, instrs bc p l) \/
   exists q, walks bc p q /\ q < lenN bc /\ (forall n, ~ good_instr bc q n) /\
      ((e = EInvalidOp /\ size_of (nthN bc q) = None) \/
       (e = EValidation /\ empty_table bc q) \/
       (e = EOob /\ size_of (nthN bc q) <> None /\ ~ empty_table bc q))).
Proof using W L.
  induction fuel as [|fuel IH]; intros p HP HF; [lia|]. cbn [verify_loop].
  destruct (N.ltb_spec p (lenN bc)).
  - destruct (step_spec p H) as (r & E & S). rewrite E. destruct r as [e|q].
    + exists e. split; [reflexivity|]. right. exists p. split; [constructor|]. split; [exact H|]. exact S.
    + destruct S as (n & -> & G). pose proof (proj1 G) as SO. apply size_of_bound in SO.
      pose proof (proj1 (proj2 G)) as HN.
      destruct (IH (p + n)) as (e & EV & S); [lia|lia|]. exists e. split; [exact EV|].
      destruct S as [[-> [l S]]|(q & WK & S)].
      * left. split; [reflexivity|]. exists (p :: l). econstructor; eassumption.
      * right. exists q. split; [econstructor; eassumption|exact S].
  - exists EOk. split; [reflexivity|]. left. split; [reflexivity|]. exists [].
    replace p with (lenN bc) by lia. constructor.
Qed.

(** A program is accepted or has a first faulty instruction, not both *)
Lemma instrs_walks p l : instrs bc p l -> forall q, walks bc p q -> exists l', instrs bc q l'.
Proof using. clear L W.
  induction 1 as [|p n l G I IH]; intros q WK.
  - inversion WK; subst; [eexists; constructor|]. destruct H as (X & Y & _). apply size_of_bound in X. lia.
  - inversion WK as [|p' n' q' G' WK']; subst; [eexists; econstructor; eassumption|].
    assert (n' = n) by (destruct G as (X & _), G' as (Y & _); congruence). subst n'. now apply IH.
Qed.
Lemma fault_not_accepted q : walks bc 0 q -> q < lenN bc -> (forall n, ~ good_instr bc q n) -> ~ good_program bc.
Proof using. clear L W.
  intros WK HQ F [l I]. destruct (instrs_walks _ _ I _ WK) as [l' I']. inversion I'; subst; [lia|]. eapply F; eassumption.
Qed.

Lemma verify_spec fuel : lenN bc < N.of_nat fuel ->
  exists e, verify fuel bc = Verdict e /\
  ((e = EOk /\ good_program bc) \/
   exists q, walks bc 0 q /\ q < lenN bc /\ (forall n, ~ good_instr bc q n) /\
      ((e = EInvalidOp /\ size_of (nthN bc q) = None) \/
       (e = EValidation /\ empty_table bc q) \/
       (e = EOob /\ size_of (nthN bc q) <> None /\ ~ empty_table bc q))).
Proof using W L.
  intros HF. unfold verify. rewrite u32_small by lia. apply loop_spec; lia.
Qed.
Lemma verify_accepts fuel : lenN bc < N.of_nat fuel -> (verify fuel bc = Verdict EOk <-> good_program bc).
Proof using W L.
  intros HF. destruct (verify_spec fuel HF) as (e & E & S). rewrite E. split; intros X.
  - injection X as ->. destruct S as [[_ S]|(q & _ & _ & _ & [[? _]|[[? _]|[? _]]])]; [exact S|discriminate..].
  - destruct S as [[-> _]|(q & S1 & S2 & S3 & _)]; [reflexivity|]. exfalso. eapply fault_not_accepted; eassumption.
Qed.
End Verify.
