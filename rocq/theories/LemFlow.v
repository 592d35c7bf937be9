(** Running the code of conditionals and switches. *)
From Coq Require Import ZifyBool ZifyNat ZifyN.
From Verif Require Import Base SpecBytes LemBase ModelWord LemWord ModelBits LemBits ModelFloat ModelTrans ModelVM SpecVM LemAct LemInstr LemCheck LemExpr LemImage SpecFlow.
Ltac Zify.zify_post_hook ::= Z.div_mod_to_equations.

Lemma placed_split bc q c : placed bc q c <-> exists a b, bc = a ++ c ++ b /\ lenN a = q.
Proof.
  split.
  - intros (E & L). exists (firstn (N.to_nat q) bc), (skipn (N.to_nat (q + lenN c)) bc). split.
    + rewrite <- (firstn_skipn (N.to_nat q) bc) at 1. f_equal.
      rewrite <- (firstn_skipn (N.to_nat (lenN c)) (skipn (N.to_nat q) bc)). f_equal; [exact E|].
      rewrite N2Nat.inj_add. symmetry. apply skipn_plus.
    + apply lenN_firstn. lia.
  - intros (a & b & -> & <-). unfold placed. rewrite !lenN_app. split; [|lia].
    unfold sub. unfold lenN. rewrite !Nat2N.id. rewrite skipn_app, skipn_all, Nat.sub_diag. cbn [app skipn].
    rewrite firstn_app, firstn_all, Nat.sub_diag. cbn [firstn]. apply app_nil_r.
Qed.
Lemma placed_app bc q a b : placed bc q (a ++ b) <-> placed bc q a /\ placed bc (q + lenN a) b.
Proof.
  split.
  - intros P. apply placed_split in P as (x & y & -> & <-). split; apply placed_split.
    + exists x, (b ++ y). now rewrite <- app_assoc.
    + exists (x ++ a), y. rewrite lenN_app. now rewrite <- !app_assoc.
  - intros ((A & LA) & (B & LB)). unfold placed. rewrite lenN_app. split; [|lia].
    rewrite <- A, <- B at 2. apply nthN_ext.
    + rewrite lenN_app, !lenN_sub by lia. lia.
    + intros i I. rewrite lenN_sub in I by lia. rewrite nthN_sub by lia. rewrite nthN_app, lenN_sub by lia.
      destruct (N.ltb_spec i (lenN a)); rewrite nthN_sub by lia; f_equal; lia.
Qed.
Lemma placed_le bc q c : placed bc q c -> q + lenN c <= lenN bc.
Proof. now intros (_ & L). Qed.
Lemma placed_one bc q op c : placed bc q (op :: c) -> nthN bc q = op /\ placed bc (q + 1) c.
Proof.
  intros P. apply (placed_app bc q [op] c) in P as ((A & LA) & B). split; [|exact B].
  apply (f_equal (fun l => nthN l 0)) in A. rewrite nthN_sub in A by (cbn; lia). rewrite N.add_0_r in A. exact A.
Qed.
Lemma placed_val bc q n v : placed bc q (bytes_of LE n v) -> val_of LE (sub bc q (N.of_nat n)) = v mod 256 ^ N.of_nat n.
Proof. intros (A & _). rewrite lenN_bytes_of in A. rewrite A. apply val_bytes. Qed.
Lemma placed_val2 bc q v : placed bc q (bytes_of LE 2 v) -> v < 2 ^ 16 -> val_of LE (sub bc q 2) = v.
Proof. intros P L. apply (placed_val bc q 2) in P. change (N.of_nat 2) with 2 in P. rewrite P. apply N.mod_small. exact L. Qed.
Lemma placed_val4 bc q v : placed bc q (bytes_of LE 4 v) -> v < 2 ^ 32 -> val_of LE (sub bc q 4) = v.
Proof. intros P L. apply (placed_val bc q 4) in P. change (N.of_nat 4) with 4 in P. rewrite P. apply N.mod_small. exact L. Qed.
Lemma placed_val8 bc q v : placed bc q (bytes_of LE 8 v) -> v < 2 ^ 64 -> val_of LE (sub bc q 8) = v.
Proof. intros P L. apply (placed_val bc q 8) in P. change (N.of_nat 8) with 8 in P. rewrite P. apply N.mod_small. exact L. Qed.

Lemma jumps_forward bc s base d : d < 2 ^ 31 -> base + d <= lenN bc -> jumps bc s base d = SCont (set_ip s (base + d)).
Proof.
  intros L M. unfold jumps, number. cbn [andb]. change (2 ^ (8 * 4 - 1)) with (2 ^ 31).
  destruct (N.leb_spec (2 ^ 31) d); [lia|].
  destruct (Z.leb_spec 0 (Z.of_N base + Z.of_N d)), (Z.leb_spec (Z.of_N base + Z.of_N d) (Z.of_N (lenN bc))); cbn [andb]; try lia.
  f_equal. f_equal. lia.
Qed.
Lemma ip_again s a b : set_ip (set_ip s a) b = set_ip s b.
Proof. reflexivity. Qed.
Lemma len5 op v : lenN ([op] ++ bytes_of LE 4 v) = 5.
Proof. rewrite lenN_app, lenN_bytes_of. reflexivity. Qed.

Lemma cases_bound l : forall at_, Forall (fun c => at_ <= snd c <= at_ + total l) (cases_from at_ l).
Proof.
  induction l as [|(o & c) l IH]; intros at_; cbn [cases_from total]; [constructor|]. apply Forall_app. split.
  - destruct o; constructor; [cbn; lia|constructor].
  - eapply Forall_impl; [|apply IH]. cbn. intros. lia.
Qed.
Lemma default_bound l : forall at_ d, default_from at_ l = Some d -> at_ <= d <= at_ + total l.
Proof.
  induction l as [|(o & c) l IH]; intros at_ d E; cbn [default_from total] in *; [discriminate|].
  destruct (default_from (at_ + lenN c + 5) l) eqn:F.
  - injection E as <-. apply IH in F. lia.
  - destruct o; [discriminate|]. injection E as <-. lia.
Qed.

Section Run.
  Context {H : Type} (host : H -> request -> H * reply) (lm : libm).
  Lemma walks_trans bc A s h s1 h1 s2 h2 : walks_in host lm bc A s h s1 h1 -> walks_in host lm bc A s1 h1 s2 h2 -> walks_in host lm bc A s h s2 h2.
  Proof. intros R1 R2. induction R2; auto. eapply walk_more; [apply IHR2; exact R1|eassumption..]. Qed.
  Lemma walks_weak bc (A B : N -> Prop) s h s1 h1 : (forall i, A i -> B i) -> walks_in host lm bc A s h s1 h1 -> walks_in host lm bc B s h s1 h1.
  Proof. intros I R. induction R; [apply walk_none|]. eapply walk_more; eauto. Qed.
  Lemma walks_reaches bc A s h s1 h1 : walks_in host lm bc A s h s1 h1 -> reaches host lm bc s h s1 h1.
  Proof. intros R. induction R; [apply reach_refl|]. eapply reach_step; eauto. Qed.
  Lemma walks_one bc (A : N -> Prop) s h s1 h1 t : A (ip s) -> ip s < lenN bc -> interp host (step lm bc s) h = (SCont s1, h1, t) -> walks_in host lm bc A s h s1 h1.
  Proof. intros. eapply walk_more; eauto. apply walk_none. Qed.

  Section In.
    Context (bc : list N) (WB : wf_bytes bc).
    Lemma step_jump q d s h : placed bc q ([0x52] ++ bytes_of LE 4 d) -> d < 2 ^ 31 -> q + 5 + d <= lenN bc ->
      interp host (step lm bc (set_ip s q)) h = (SCont (set_ip s (q + 5 + d)), h, []).
    Proof.
      intros P D L. pose proof (placed_le _ _ _ P) as PL. rewrite len5 in PL.
      apply placed_one in P as (HO & P). change (opcode_at bc (set_ip s q) = 0x52) in HO.
      assert (IL : ip (set_ip s q) < lenN bc) by (cbn [ip set_ip]; lia). enter_op HO. unfold jump_op. enter_args.
      rewrite fetch_at by (auto; cbn [wbytes]; lia). cbn [lift wbytes]. rewrite (placed_val4 _ _ _ P) by lia.
      rewrite jump_to_spec, jumps_forward by lia. rewrite !ip_again. replace (q + 1 + 4 + d) with (q + 5 + d) by lia. reflexivity.
    Qed.
    Lemma step_branch q d s h v rest : placed bc q ([0x50] ++ bytes_of LE 4 d) -> d < 2 ^ 31 -> q + 5 + d <= lenN bc -> stk s = v :: rest ->
      interp host (step lm bc (set_ip s q)) h = (SCont (set_ip (set_stk s rest) (if v =? 0 then q + 5 + d else q + 5)), h, []).
    Proof.
      intros P D L S1. pose proof (placed_le _ _ _ P) as PL. rewrite len5 in PL.
      apply placed_one in P as (HO & P). change (opcode_at bc (set_ip s q) = 0x50) in HO.
      assert (IL : ip (set_ip s q) < lenN bc) by (cbn [ip set_ip]; lia). enter_op HO. unfold jump_if_not. enter_args.
      rewrite fetch_at by (auto; cbn [wbytes]; lia). cbn [lift wbytes]. rewrite (placed_val4 _ _ _ P) by lia.
      unfold pop. cbn [stk set_ip]. rewrite S1. destruct (v =? 0).
      - rewrite jump_to_spec, jumps_forward by lia. replace (q + 1 + 4 + d) with (q + 5 + d) by lia. reflexivity.
      - cbn [interp]. replace (q + 1 + 4) with (q + 5) by lia. reflexivity.
    Qed.
  End In.

  Lemma does_weak c (R1 R2 : @effect H) : does host lm c R1 -> (forall s h s' h', R2 s h s' h' -> R1 s h s' h') -> does host lm c R2.
  Proof. intros D I bc q WB LB P s h s' h' R. apply D; auto. Qed.
  Lemma does_nil : does host lm [] nothing.
  Proof. intros bc q WB LB P s h s' h' (-> & ->). change (lenN []) with 0. rewrite N.add_0_r. apply walk_none. Qed.
  Lemma does_app a b R1 R2 : does host lm a R1 -> does host lm b R2 -> does host lm (a ++ b) (followed R1 R2).
  Proof.
    intros D1 D2 bc q WB LB P s h s' h' (s1 & h1 & X & Y). apply placed_app in P as (PA & PB). rewrite lenN_app.
    eapply walks_trans.
    - eapply walks_weak; [|apply (D1 bc q WB LB PA _ _ _ _ X)]. unfold within. lia.
    - rewrite N.add_assoc. eapply walks_weak; [|apply (D2 bc _ WB LB PB _ _ _ _ Y)]. unfold within. lia.
  Qed.

  (** Expressions *)
  Lemma does_postfix val e : (forall k, val k < 2 ^ 64) ->
    (forall h k, k < 2 ^ 16 -> let r := snd (host h (ask k 0x60 (cvar 8 0) HQuery)) in r_ok r = true /\ answer 8 0 r = val k) ->
    keys_fit e -> does host lm (postfix e) (computes host val e).
  Proof.
    intros VB HV. induction e as [x|k|o a IHa b IHb|o a IHa]; intros KF bc q WB LB P s h s' h' (SL & -> & v & EV & ->);
      cbn [postfix asking slots keys_fit ieval] in *; pose proof (placed_le _ _ _ P) as PL.
    - injection EV as <-. apply placed_one in P as (HO & P). rewrite lenN_cons in *. change (lenN (bytes_of LE 8 x) + 1) with 9 in *.
      eapply walks_one; [unfold within; cbn [ip set_ip]; lia|cbn [ip set_ip]; lia|]. rewrite (step_lit host lm bc WB val VB HV) with (v := x); auto.
      + cbn [ip set_ip]. destruct P as (P & _). change (lenN (bytes_of LE 8 x)) with 8 in P. exact P.
      + cbn [stk set_ip]. lia.
    - injection EV as <-. apply placed_one in P as (HO & P). rewrite lenN_cons in *. change (lenN (bytes_of LE 2 k) + 1) with 3 in *.
      destruct (step_field host lm bc WB val VB HV (set_ip s q) h k HO) as (h' & r & HH & X); auto.
      + cbn [ip set_ip]. destruct P as (P & _). change (lenN (bytes_of LE 2 k)) with 2 in P. exact P.
      + cbn [stk set_ip]. lia.
      + rewrite HH. eapply walks_one; [unfold within; cbn [ip set_ip]; lia|cbn [ip set_ip]; lia|]. exact X.
    - destruct KF as (KA & KB). destruct (ieval val a) as [x| |] eqn:EA; try discriminate. destruct (ieval val b) as [y| |] eqn:EB; try discriminate.
      pose proof (ieval_bound lm val a VB _ EA) as BX. pose proof (ieval_bound lm val b VB _ EB) as BY.
      apply placed_app in P as (PA & P). apply placed_app in P as (PB & PO). rewrite !lenN_app in *. change (lenN [ibin_op o]) with 1 in *.
      assert (WA : walks_in host lm bc (within q (q + lenN (postfix a))) (set_ip s q) h (set_ip (set_stk s (x :: stk s)) (q + lenN (postfix a))) (asking host a h)).
      { apply (IHa KA bc q WB LB PA). split; [lia|]. split; [reflexivity|]. exists x. auto. }
      assert (WC : walks_in host lm bc (within (q + lenN (postfix a)) (q + lenN (postfix a) + lenN (postfix b)))
        (set_ip (set_stk s (x :: stk s)) (q + lenN (postfix a))) (asking host a h)
        (set_ip (set_stk s (y :: x :: stk s)) (q + lenN (postfix a) + lenN (postfix b))) (asking host b (asking host a h))).
      { apply (IHb KB bc _ WB LB PB (set_stk s (x :: stk s)) _ (set_stk s (y :: x :: stk s))). split; [cbn [stk set_stk]; rewrite lenN_cons; lia|].
        split; [reflexivity|]. exists y. auto. }
      pose proof (bin_spec lm o x y BX BY) as SP. rewrite EV in SP. destruct SP as (SP & _).
      eapply walk_more with (t := []); [eapply walks_trans| | |].
      + eapply walks_weak; [|exact WA]. unfold within. lia.
      + eapply walks_weak; [|exact WC]. unfold within. lia.
      + unfold within. cbn [ip set_ip]. lia.
      + cbn [ip set_ip]. lia.
      + erewrite step_bin with (o := o) (x := x) (y := y) (rest := stk s); [rewrite SP| | | |].
        * cbn [ip set_ip]. replace (q + (lenN (postfix a) + (lenN (postfix b) + 1))) with (q + lenN (postfix a) + lenN (postfix b) + 1) by lia. reflexivity.
        * apply placed_one in PO as (HO & _). exact HO.
        * cbn [ip set_ip]. lia.
        * reflexivity.
        * lia.
    - destruct (ieval val a) as [x| |] eqn:EA; try discriminate.
      pose proof (ieval_bound lm val a VB _ EA) as BX. assert (S0 : 0 < slots a) by (clear; induction a; cbn [slots]; lia).
      apply placed_app in P as (PA & PO). rewrite !lenN_app in *. change (lenN [iun_op o]) with 1 in *.
      assert (WA : walks_in host lm bc (within q (q + lenN (postfix a))) (set_ip s q) h (set_ip (set_stk s (x :: stk s)) (q + lenN (postfix a))) (asking host a h)).
      { apply (IHa KF bc q WB LB PA). split; [lia|]. split; [reflexivity|]. exists x. auto. }
      pose proof (un_spec lm o x BX) as SP. rewrite EV in SP. destruct SP as (SP & _).
      eapply walk_more with (t := []).
      + eapply walks_weak; [|exact WA]. unfold within. lia.
      + unfold within. cbn [ip set_ip]. lia.
      + cbn [ip set_ip]. lia.
      + erewrite step_un with (o := o) (x := x) (rest := stk s); [rewrite SP| | | |].
        * cbn [ip set_ip]. replace (q + (lenN (postfix a) + 1)) with (q + lenN (postfix a) + 1) by lia. reflexivity.
        * apply placed_one in PO as (HO & _). exact HO.
        * cbn [ip set_ip]. lia.
        * reflexivity.
        * lia.
  Qed.

  (** Conditionals *)
  Lemma if_placed bc q cond thn els : placed bc q (if_code cond thn els) ->
    let q1 := q + lenN cond in let q2 := q1 + 5 in let q3 := q2 + lenN thn in let q4 := q3 + 5 in
    placed bc q cond /\ placed bc q1 ([0x50] ++ bytes_of LE 4 (lenN thn + 5)) /\ placed bc q2 thn /\
    placed bc q3 ([0x52] ++ bytes_of LE 4 (lenN els)) /\ placed bc q4 els /\ q + lenN (if_code cond thn els) = q4 + lenN els.
  Proof.
    intros P q1 q2 q3 q4. unfold if_code in *.
    assert (E : cond ++ [0x50] ++ bytes_of LE 4 (lenN thn + 5) ++ thn ++ [0x52] ++ bytes_of LE 4 (lenN els) ++ els =
      cond ++ (([0x50] ++ bytes_of LE 4 (lenN thn + 5)) ++ (thn ++ (([0x52] ++ bytes_of LE 4 (lenN els)) ++ els))))
      by now rewrite <- !app_assoc.
    rewrite E in *. clear E.
    repeat (rewrite placed_app in P). rewrite !len5 in P. destruct P as (A & B & C & D & F).
    split; [exact A|]. split; [apply placed_app; exact B|]. split; [exact C|]. split; [apply placed_app; exact D|]. split; [exact F|].
    rewrite (lenN_app cond), (lenN_app _ (thn ++ _)), (lenN_app thn), (lenN_app _ els), !len5. unfold q4, q3, q2, q1. lia.
  Qed.
  Section If.
    Context (cond thn els : list N) (C T E : @effect H) (bc : list N) (q : N).
    Context (WB : wf_bytes bc) (LB : lenN bc < 2 ^ 31) (P : placed bc q (if_code cond thn els)).
    Let start1 := q + lenN cond + 5.
    Let start2 := start1 + lenN thn + 5.
    Let stop := q + lenN (if_code cond thn els).
    Lemma if_enter s h s1 h1 v rest : does host lm cond C -> C s h s1 h1 -> stk s1 = v :: rest ->
      walks_in host lm bc (within q start1) (set_ip s q) h (set_ip (set_stk s1 rest) (if v =? 0 then start2 else start1)) h1.
    Proof.
      intros DC X Y. destruct (if_placed _ _ _ _ _ P) as (PC & PB & PT & PJ & PE & LE_).
      pose proof (placed_le _ _ _ PE). pose proof (placed_le _ _ _ PJ) as LJ. rewrite len5 in LJ.
      eapply walks_trans.
      - eapply walks_weak; [|apply (DC bc q WB LB PC _ _ _ _ X)]. unfold within, start1. lia.
      - eapply walks_one; [| |rewrite step_branch with (v := v) (rest := rest) (1 := WB) (2 := PB) by (auto; lia)].
        + unfold within, start1. cbn [ip set_ip]. lia.
        + cbn [ip set_ip]. lia.
        + unfold start2, start1. replace (q + lenN cond + 5 + (lenN thn + 5)) with (q + lenN cond + 5 + lenN thn + 5) by lia. reflexivity.
    Qed.
    Lemma if_then s h s1 h1 v rest s2 h2 : does host lm cond C -> does host lm thn T -> C s h s1 h1 -> stk s1 = v :: rest -> v <> 0 ->
      T (set_stk s1 rest) h1 s2 h2 -> walks_in host lm bc (within q start2) (set_ip s q) h (set_ip s2 stop) h2.
    Proof.
      intros DC DT X Y V Z. pose proof (if_enter s h s1 h1 v rest DC X Y) as W. destruct (N.eqb_spec v 0) as [|_]; [contradiction|].
      destruct (if_placed _ _ _ _ _ P) as (PC & PB & PT & PJ & PE & LE_).
      pose proof (placed_le _ _ _ PE). pose proof (placed_le _ _ _ PJ) as LJ. rewrite len5 in LJ.
      eapply walks_trans; [eapply walks_weak; [|exact W]|eapply walks_trans].
      - unfold within, start2. lia.
      - eapply walks_weak; [|apply (DT bc _ WB LB PT _ _ _ _ Z)]. unfold within, start2, start1. lia.
      - eapply walks_one; [| |rewrite step_jump with (1 := WB) (2 := PJ) by lia].
        + unfold within, start2, start1. cbn [ip set_ip]. lia.
        + cbn [ip set_ip]. lia.
        + unfold stop. rewrite LE_. reflexivity.
    Qed.
    Lemma if_else s h s1 h1 rest s2 h2 : does host lm cond C -> does host lm els E -> C s h s1 h1 -> stk s1 = 0 :: rest ->
      E (set_stk s1 rest) h1 s2 h2 ->
      walks_in host lm bc (fun i => within q start1 i \/ within start2 stop i) (set_ip s q) h (set_ip s2 stop) h2.
    Proof.
      intros DC DE X Y Z. pose proof (if_enter s h s1 h1 0 rest DC X Y) as W. cbn [N.eqb] in W.
      destruct (if_placed _ _ _ _ _ P) as (PC & PB & PT & PJ & PE & LE_).
      eapply walks_trans; [eapply walks_weak; [|exact W]|].
      - auto.
      - unfold stop. rewrite LE_. eapply walks_weak; [|apply (DE bc _ WB LB PE _ _ _ _ Z)]. unfold within, start2, start1. intros i I. right. exact I.
    Qed.
  End If.
  Lemma does_if cond thn els C T E : does host lm cond C -> does host lm thn T -> does host lm els E ->
    does host lm (if_code cond thn els) (if_effect C T E).
  Proof.
    intros DC DT DE bc q WB LB P s h s' h' (s1 & h1 & v & rest & X & Y & Z).
    destruct (if_placed _ _ _ _ _ P) as (PC & PB & PT & PJ & PE & LE_). destruct (N.eqb_spec v 0) as [->|V].
    - eapply walks_weak; [|eapply if_else with (1 := WB) (2 := LB) (3 := P) (4 := DC) (5 := DE); eauto]. unfold within. lia.
    - eapply walks_weak; [|eapply if_then with (1 := WB) (2 := LB) (3 := P) (4 := DC) (5 := DT); eauto]. unfold within. lia.
  Qed.

  (** Switches *)
  Lemma bodies_len l after : lenN (bodies_code l after) = total l.
  Proof. induction l as [|(o & c) l IH]; cbn [bodies_code total]; [reflexivity|]. rewrite !lenN_app, IH, lenN_bytes_of. change (lenN [82]) with 1. lia. Qed.
  Section Bodies.
    Context (bc : list N) (WB : wf_bytes bc) (LB : lenN bc < 2 ^ 31) (b after : N).
    Definition does_all (l : list body) (effs : list (option N * @effect H)) : Prop :=
      Forall2 (fun x e => fst x = fst e /\ does host lm (snd x) (snd e)) l effs.
    Lemma body_runs (c : list N) (R : @effect H) rest lo hi q s h s' h' : does host lm c R ->
      placed bc q (c ++ [0x52] ++ bytes_of LE 4 (total rest + after) ++ bodies_code rest after) ->
      q + lenN c + 5 + total rest + after <= lenN bc -> lo <= q -> q + lenN c + 5 <= hi -> R s h s' h' ->
      walks_in host lm bc (within lo hi) (set_ip s q) h (set_ip s' (q + lenN c + 5 + total rest + after)) h'.
    Proof.
      intros D P L B1 B2 X. apply placed_app in P as (PC & P). rewrite app_assoc in P. apply placed_app in P as (PJ & _).
      eapply walks_trans.
      - eapply walks_weak; [|apply (D bc q WB LB PC _ _ _ _ X)]. unfold within. lia.
      - pose proof (placed_le _ _ _ PJ) as LJ. rewrite len5 in LJ. eapply walks_one; [| |rewrite step_jump with (1 := WB) (2 := PJ) by lia].
        + unfold within. cbn [ip set_ip]. lia.
        + cbn [ip set_ip]. lia.
        + replace (q + lenN c + 5 + (total rest + after)) with (q + lenN c + 5 + total rest + after) by lia. reflexivity.
    Qed.
    Lemma bodies_tail at_ o c l : placed bc (b + at_) (bodies_code ((o, c) :: l) after) ->
      placed bc (b + (at_ + lenN c + 5)) (bodies_code l after).
    Proof.
      cbn [bodies_code]. intros P. rewrite !placed_app in P. destruct P as (_ & _ & _ & P). rewrite lenN_bytes_of in P.
      change (lenN [82]) with 1 in P. change (N.of_nat 4) with 4 in P. replace (b + (at_ + lenN c + 5)) with (b + at_ + lenN c + 1 + 4) by lia. exact P.
    Qed.
    Definition runs_at (lo hi o : N) (R : @effect H) stop : Prop := b + o <= lenN bc /\
      forall s h s' h', R s h s' h' -> walks_in host lm bc (within lo hi) (set_ip s (b + o)) h (set_ip s' stop) h'.
    Lemma under_runs l effs v lo hi : does_all l effs -> forall at_, placed bc (b + at_) (bodies_code l after) ->
      b + at_ + total l + after <= lenN bc -> lo <= b + at_ -> b + at_ + total l <= hi ->
      match under effs v with
      | Some R => exists o, (forall d, dispatch (cases_from at_ l) d v = o) /\ runs_at lo hi o R (b + at_ + total l + after)
      | None => forall d, dispatch (cases_from at_ l) d v = d
      end.
    Proof.
      induction 1 as [|(o & c) (o' & R) l effs (EO & D) F IH]; intros at_ P L B1 B2; cbn [under cases_from].
      - intros d. reflexivity.
      - cbn [fst snd] in EO, D. subst o'. cbn [total] in L, B2. specialize (IH (at_ + lenN c + 5) (bodies_tail _ _ _ _ P)).
        assert (IH' : match under effs v with
          | Some R => exists o1, (forall d, dispatch (cases_from (at_ + lenN c + 5) l) d v = o1) /\ runs_at lo hi o1 R (b + at_ + total ((o, c) :: l) + after)
          | None => forall d, dispatch (cases_from (at_ + lenN c + 5) l) d v = d end).
        { cbn [total]. replace (b + at_ + (lenN c + 5 + total l) + after) with (b + (at_ + lenN c + 5) + total l + after) by lia. apply IH; lia. }
        clear IH. destruct o as [x|]; cbn [app].
        + destruct (N.eqb_spec v x) as [->|NE].
          * exists at_. split; [intros d; cbn [dispatch]; now rewrite N.eqb_refl|].
            split; [lia|]. intros s h s' h' X. cbn [total bodies_code] in *.
            replace (b + at_ + (lenN c + 5 + total l) + after) with (b + at_ + lenN c + 5 + total l + after) by lia.
            eapply body_runs; eauto; lia.
          * destruct (under effs v) as [R'|]; [destruct IH' as (o & O1 & O2); exists o; split; auto; intros d|intros d];
              cbn [dispatch]; (destruct (N.eqb_spec v x); [contradiction|auto]).
        + exact IH'.
    Qed.
    Lemma otherwise_runs l effs lo hi : does_all l effs -> forall at_, placed bc (b + at_) (bodies_code l after) ->
      b + at_ + total l + after <= lenN bc -> lo <= b + at_ -> b + at_ + total l <= hi ->
      match otherwise effs with
      | Some R => exists o, default_from at_ l = Some o /\ runs_at lo hi o R (b + at_ + total l + after)
      | None => default_from at_ l = None
      end.
    Proof.
      induction 1 as [|(o & c) (o' & R) l effs (EO & D) F IH]; intros at_ P L B1 B2; cbn [otherwise default_from].
      - reflexivity.
      - cbn [fst snd] in EO, D. subst o'. cbn [total] in L, B2 |- *. specialize (IH (at_ + lenN c + 5) (bodies_tail _ _ _ _ P)).
        replace (b + (at_ + lenN c + 5) + total l + after) with (b + at_ + (lenN c + 5 + total l) + after) in IH by lia.
        specialize (IH ltac:(lia) ltac:(lia) ltac:(lia)).
        destruct (otherwise effs) as [R'|].
        + destruct IH as (o1 & -> & X). eauto.
        + rewrite IH. destruct o as [x|]; auto. exists at_. split; auto. split; [lia|].
          intros s h s' h' X. cbn [bodies_code] in P.
          replace (b + at_ + (lenN c + 5 + total l) + after) with (b + at_ + lenN c + 5 + total l + after) by lia.
          eapply body_runs; eauto; lia.
    Qed.
  End Bodies.

  Lemma placed_flat bc {A} (f : A -> list N) k l : (forall x, lenN (f x) = k) -> forall p, placed bc p (flat_map f l) ->
    forall i d, (i < length l)%nat -> placed bc (p + N.of_nat i * k) (f (nth i l d)).
  Proof.
    intros K. induction l as [|x l IH]; intros p P i d L; cbn [length] in L; [lia|]. cbn [flat_map] in P. apply placed_app in P as (PX & P).
    rewrite K in P. destruct i as [|i]; cbn [nth].
    - rewrite N.mul_0_l, N.add_0_r. exact PX.
    - specialize (IH _ P i d ltac:(lia)). replace (p + N.of_nat (S i) * k) with (p + k + N.of_nat i * k) by lia. exact IH.
  Qed.
  Lemma case_list_placed bc cs : forall p, placed bc p (flat_map (fun c => bytes_of LE 8 (fst c) ++ bytes_of LE 4 (snd c)) cs) ->
    Forall (fun c => fst c < 2 ^ 64 /\ snd c < 2 ^ 32) cs -> case_list bc p (lenN cs) = cs.
  Proof.
    unfold case_list, lenN. induction cs as [|(v & o) cs IH]; intros p P F; [reflexivity|].
    cbn [flat_map fst snd] in P. rewrite !placed_app in P. destruct P as ((P8 & P4) & P). rewrite lenN_app, !lenN_bytes_of in *.
    change (N.of_nat 8) with 8 in *. change (N.of_nat 4) with 4 in *. inversion F as [|? ? (V & O1) F']; subst. cbn [fst snd] in V, O1.
    cbn [length]. rewrite Nat2N.id in *. cbn [seq map]. f_equal.
    - unfold case_at. cbn [N.of_nat]. rewrite N.mul_0_l, N.add_0_r. rewrite (placed_val8 _ _ _ P8 V), (placed_val4 _ _ _ P4 O1). reflexivity.
    - rewrite <- seq_shift, map_map. etransitivity; [|exact (IH _ P F')]. rewrite ?Nat2N.id. apply map_ext. intros i. unfold case_at.
      f_equal; do 2 f_equal; lia.
  Qed.

  Lemma dispatch_some cs d v : dispatch cs d v = d \/ exists o, In (v, o) cs /\ dispatch cs d v = o.
  Proof.
    induction cs as [|(x & o) cs IH]; cbn [dispatch]; auto. destruct (N.eqb_spec v x) as [->|NE].
    - right. exists o. split; auto. left. auto.
    - destruct IH as [IH|(o' & I & IH)]; auto. right. exists o'. split; auto. right. auto.
  Qed.

  (** Common part: once the target of the dispatch is known *)
  Lemma switch_finish bc q l effs after stop s h h1 r t s' h' :
    wf_bytes bc -> lenN bc < 2 ^ 31 -> does_all l effs ->
    let b := q + 7 in placed bc b (bodies_code l after) -> stop = b + total l + after -> stop <= lenN bc ->
    let v := answer 8 0 r in
    interp host (step lm bc (set_ip s q)) h =
      (jumps bc (set_ip s b) b (dispatch (cases_from 0 l) (default_offset l after) v), h1, t) ->
    match chosen effs v with Some R => R s h1 s' h' | None => nothing s h1 s' h' end ->
    walks_in host lm bc (within q stop) (set_ip s q) h (set_ip s' stop) h'.
  Proof.
    intros WB LB DA b PB -> LS v ST CH. replace b with (b + 0) in PB by lia.
    pose proof (under_runs bc WB LB b after l effs v q (b + total l + after) DA 0 PB ltac:(lia) ltac:(lia) ltac:(lia)) as UR.
    pose proof (otherwise_runs bc WB LB b after l effs q (b + total l + after) DA 0 PB ltac:(lia) ltac:(lia) ltac:(lia)) as OR.
    unfold default_offset in ST. rewrite N.add_0_r in *. unfold chosen in CH.
    assert (QL : q < lenN bc) by lia.
    assert (GO : forall o, b + o <= lenN bc -> interp host (step lm bc (set_ip s q)) h = (jumps bc (set_ip s b) b o, h1, t) ->
      walks_in host lm bc (within q (b + total l + after)) (set_ip s q) h (set_ip s (b + o)) h1).
    { intros o L X. eapply walks_one; [| |rewrite X, jumps_forward by lia; reflexivity]; cbn [ip set_ip]; unfold within; lia. }
    destruct (under effs v) as [R|].
    - destruct UR as (o & O1 & O2 & O3). rewrite O1 in ST. eapply walks_trans; [apply (GO o O2 ST)|]. apply O3. exact CH.
    - rewrite UR in ST. destruct (otherwise effs) as [R|].
      + destruct OR as (o & O1 & O2 & O3). rewrite O1 in ST. eapply walks_trans; [apply (GO o O2 ST)|]. apply O3. exact CH.
      + rewrite OR in ST. destruct CH as (-> & ->). specialize (GO (total l + after) ltac:(lia) ST).
        rewrite N.add_assoc in GO. exact GO.
  Qed.

  Lemma switch_parts bc q op key l after tab : placed bc q ([op] ++ bytes_of LE 2 key ++ bytes_of LE 4 (total l) ++ bodies_code l after ++ tab) ->
    nthN bc q = op /\ placed bc (q + 1) (bytes_of LE 2 key) /\ placed bc (q + 3) (bytes_of LE 4 (total l)) /\
    placed bc (q + 7) (bodies_code l after) /\ placed bc (q + 7 + total l) tab /\ q + 7 + total l + lenN tab <= lenN bc.
  Proof.
    intros P. cbn [app] in P. apply placed_one in P as (A & P). rewrite !placed_app, bodies_len, !lenN_bytes_of in P.
    change (N.of_nat 2) with 2 in P. change (N.of_nat 4) with 4 in P. destruct P as (B & C & D & E).
    replace (q + 1 + 2) with (q + 3) in * by lia. replace (q + 3 + 4) with (q + 7) in * by lia.
    split; [exact A|]. split; [exact B|]. split; [exact C|]. split; [exact D|]. split; [exact E|]. apply (placed_le _ _ _ E).
  Qed.
  Lemma flat_len {A} (f : A -> list N) k l : (forall x, lenN (f x) = k) -> lenN (flat_map f l) = lenN l * k.
  Proof.
    intros K. induction l as [|x l IH]; [reflexivity|]. cbn [flat_map]. rewrite lenN_app, IH, K. unfold lenN. cbn [length]. lia.
  Qed.
  (** The instruction of a switch asks for the value and jumps to what is selected *)
  Lemma switch_step bc q key l c s h h1 r : wf_bytes bc -> lenN bc < 2 ^ 31 -> key < 2 ^ 16 -> switch_code key l c -> placed bc q c ->
    host h (ask key 0x06 (cvar 8 0) HQuery) = (h1, r) -> r_ok r = true ->
    exists after t, lenN c = 7 + total l + after /\ placed bc (q + 7) (bodies_code l after) /\ q + 7 + total l + after <= lenN bc /\
      interp host (step lm bc (set_ip s q)) h =
        (jumps bc (set_ip s (q + 7)) (q + 7) (dispatch (cases_from 0 l) (default_offset l after) (answer 8 0 r)), h1, t).
  Proof.
    intros WB LB K SC P HH HR. destruct SC as [NC VC size|mn n VR MX size].
    - apply switch_parts in P as (HO & PK & PL & PB & PT & LT).
      assert (TS : lenN (list_table (cases_from 0 l) (default_offset l size)) = size).
      { unfold list_table. rewrite !lenN_app, !lenN_bytes_of, (flat_len _ 12).
        - unfold size. change (N.of_nat 2) with 2. change (N.of_nat 4) with 4. lia.
        - intros x. rewrite lenN_app, !lenN_bytes_of. reflexivity. }
      rewrite TS in LT. unfold list_table in PT. rewrite !placed_app, !lenN_bytes_of in PT. change (N.of_nat 2) with 2 in PT. change (N.of_nat 4) with 4 in PT.
      destruct PT as (PN & PD & PC).
      assert (EL : q + lenN ([81] ++ bytes_of LE 2 key ++ bytes_of LE 4 (total l) ++ bodies_code l size ++ list_table (cases_from 0 l) (default_offset l size)) = q + 7 + total l + size).
      { rewrite !lenN_app, !lenN_bytes_of, bodies_len, TS. change (lenN [81]) with 1. lia. }
      exists size, [(ask key 0x06 (cvar 8 0) HQuery, r)]. split; [lia|]. split; [exact PB|]. split; [exact LT|].
      assert (TB : q + 7 + operand_at bc (set_ip s q) 3 4 = q + 7 + total l).
      { unfold operand_at. cbn [ip set_ip]. rewrite (placed_val4 _ _ _ PL) by lia. reflexivity. }
      assert (KE : key_at bc (set_ip s q) = key).
      { unfold key_at, operand_at. cbn [ip set_ip]. apply (placed_val2 _ _ _ PK K). }
      assert (CE : val_of LE (sub bc (q + 7 + total l) 2) = lenN (cases_from 0 l)) by (apply (placed_val2 _ _ _ PN); lia).
      assert (DB : default_offset l size < 2 ^ 31).
      { unfold default_offset. destruct (default_from 0 l) eqn:DF; [apply default_bound in DF; lia|lia]. }
      assert (DE : val_of LE (sub bc (q + 7 + total l + 2) 4) = default_offset l size) by (apply (placed_val4 _ _ _ PD); lia).
      assert (CL : case_list bc (q + 7 + total l + 6) (lenN (cases_from 0 l)) = cases_from 0 l).
      { apply (case_list_placed bc); [replace (q + 7 + total l + 6) with (q + 7 + total l + 2 + 4) by lia; exact PC|].
        pose proof (cases_bound l 0) as CB. rewrite Forall_forall in *. intros x I. specialize (CB x I). specialize (VC x I). split; [exact VC|]. lia. }
      pose proof (switch_list host lm bc WB (set_ip s q) h h1 r) as SL. cbn [ip set_ip] in SL. cbv zeta in SL.
      rewrite TB, CE, DE, CL, KE in SL. rewrite SL; [reflexivity|exact HO|lia|unfold size in LT; lia|exact HH|exact HR].
    - apply switch_parts in P as (HO & PK & PL & PB & PT & LT).
      assert (TS : lenN (dense_table mn n (cases_from 0 l) (default_offset l size)) = size).
      { unfold dense_table. rewrite !lenN_app, !lenN_bytes_of, (flat_len _ 4).
        - unfold size, lenN. rewrite seq_length. change (N.of_nat 8) with 8. change (N.of_nat 4) with 4. lia.
        - intros x. rewrite lenN_bytes_of. reflexivity. }
      rewrite TS in LT. unfold dense_table in PT. rewrite !placed_app, !lenN_bytes_of in PT. change (N.of_nat 8) with 8 in PT. change (N.of_nat 4) with 4 in PT.
      destruct PT as (PMN & PMX & PD & PC).
      assert (EL : q + lenN ([83] ++ bytes_of LE 2 key ++ bytes_of LE 4 (total l) ++ bodies_code l size ++ dense_table mn n (cases_from 0 l) (default_offset l size)) = q + 7 + total l + size).
      { rewrite !lenN_app, !lenN_bytes_of, bodies_len, TS. change (lenN [83]) with 1. lia. }
      exists size, [(ask key 0x06 (cvar 8 0) HQuery, r)]. split; [lia|]. split; [exact PB|]. split; [exact LT|].
      assert (TB : q + 7 + operand_at bc (set_ip s q) 3 4 = q + 7 + total l).
      { unfold operand_at. cbn [ip set_ip]. rewrite (placed_val4 _ _ _ PL) by lia. reflexivity. }
      assert (KE : key_at bc (set_ip s q) = key).
      { unfold key_at, operand_at. cbn [ip set_ip]. apply (placed_val2 _ _ _ PK K). }
      assert (NE : val_of LE (sub bc (q + 7 + total l) 8) = mn) by (apply (placed_val8 _ _ _ PMN); lia).
      assert (XE : val_of LE (sub bc (q + 7 + total l + 8) 8) = mn + N.of_nat n) by (apply (placed_val8 _ _ _ PMX); lia).
      assert (DB : default_offset l size < 2 ^ 31).
      { unfold default_offset. destruct (default_from 0 l) eqn:DF; [apply default_bound in DF; lia|lia]. }
      assert (DE : val_of LE (sub bc (q + 7 + total l + 16) 4) = default_offset l size).
      { replace (q + 7 + total l + 16) with (q + 7 + total l + 8 + 8) by lia. apply (placed_val4 _ _ _ PD); lia. }
      pose proof (switch_dense host lm bc WB (set_ip s q) h h1 r) as SL. cbn [ip set_ip] in SL. cbv zeta in SL.
      rewrite TB, NE, XE, DE, KE in SL.
      assert (DL : dispatch (dense_list bc (q + 7 + total l + 20) mn (mn + N.of_nat n - mn + 1)) (default_offset l size) (answer 8 0 r) =
                   dispatch (cases_from 0 l) (default_offset l size) (answer 8 0 r)).
      { set (v := answer 8 0 r). unfold dense_list. rewrite dispatch_dense. rewrite N2Nat.id.
        destruct ((mn <=? v) && (v <? mn + (mn + N.of_nat n - mn + 1))) eqn:RG.
        - replace (q + 7 + total l + 20) with (q + 7 + total l + 8 + 8 + 4) by lia.
          pose proof (placed_flat bc _ 4 _ (fun x => lenN_bytes_of LE 4 _) _ PC (N.to_nat (v - mn)) 0%nat
            ltac:(rewrite seq_length; lia)) as PV. cbv beta in PV.
          rewrite seq_nth in PV by lia. rewrite Nat.add_0_l, N2Nat.id in PV.
          replace (mn + (v - mn)) with v in PV by lia. apply (placed_val4 _ _ _ PV).
          destruct (dispatch_some (cases_from 0 l) (default_offset l size) v) as [->|(o & I & ->)]; [lia|].
          pose proof (proj1 (Forall_forall _ _) (cases_bound l 0) _ I) as CB. cbn [snd] in CB. lia.
        - destruct (dispatch_some (cases_from 0 l) (default_offset l size) v) as [E|(o & I & E)]; [auto|].
          pose proof (proj1 (Forall_forall _ _) VR _ I) as VB. cbn [fst] in VB. lia. }
      rewrite DL in SL. rewrite SL; [reflexivity|exact HO|lia|lia|lia|unfold size in LT; lia|exact HH|exact HR].
  Qed.
  Lemma switch_refused bc q key l c s h h1 r : wf_bytes bc -> lenN bc < 2 ^ 31 -> key < 2 ^ 16 -> switch_code key l c -> placed bc q c ->
    host h (ask key 0x06 (cvar 8 0) HQuery) = (h1, r) -> r_ok r = false ->
    q < lenN bc /\ exists t, interp host (step lm bc (set_ip s q)) h = (SHalt ECallback (set_ip s (q + 7)), h1, t).
  Proof.
    intros WB LB K SC P HH HR. destruct SC as [NC VC size|mn n VR MX size].
    - apply switch_parts in P as (HO & PK & PL & PB & PT & LT). unfold list_table in PT, LT. rewrite !lenN_app, !lenN_bytes_of in LT. change (N.of_nat 2) with 2 in LT. change (N.of_nat 4) with 4 in LT.
      split; [lia|]. eexists. change (opcode_at bc (set_ip s q) = 0x51) in HO. assert (LI : ip (set_ip s q) < lenN bc) by (cbn [ip set_ip]; lia). enter_op HO. unfold switch_op. cbn [ip set_ip] in *.
      rewrite fetch_at by (auto; cbn [wbytes]; lia). cbn [lift wbytes]. rewrite (placed_val2 _ _ _ PK K). replace (q + 1 + 2) with (q + 3) by lia.
      rewrite fetch_at by (auto; cbn [wbytes]; lia). cbn [lift wbytes]. rewrite (placed_val4 _ _ _ PL) by lia. replace (q + 3 + 4) with (q + 7) by lia. cbv zeta.
      destruct (N.ltb_spec (lenN bc) (q + 7 + total l)); [lia|].
      rewrite fetch_at by (auto; cbn [wbytes]; lia). cbn [lift wbytes]. rewrite fetch_at by (auto; cbn [wbytes]; lia). cbn [lift wbytes].
      erewrite interp_call_no; [|exact HH|exact HR]. reflexivity.
    - apply switch_parts in P as (HO & PK & PL & PB & PT & LT). unfold dense_table in PT, LT. rewrite !lenN_app, !lenN_bytes_of in LT. change (N.of_nat 8) with 8 in LT. change (N.of_nat 4) with 4 in LT.
      split; [lia|]. eexists. change (opcode_at bc (set_ip s q) = 0x53) in HO. assert (LI : ip (set_ip s q) < lenN bc) by (cbn [ip set_ip]; lia). enter_op HO. unfold switch_table. cbn [ip set_ip] in *.
      rewrite fetch_at by (auto; cbn [wbytes]; lia). cbn [lift wbytes]. rewrite (placed_val2 _ _ _ PK K). replace (q + 1 + 2) with (q + 3) by lia.
      rewrite fetch_at by (auto; cbn [wbytes]; lia). cbn [lift wbytes]. rewrite (placed_val4 _ _ _ PL) by lia. replace (q + 3 + 4) with (q + 7) by lia. cbv zeta.
      destruct (N.ltb_spec (lenN bc) (q + 7 + total l)); [lia|]. destruct (N.ltb_spec (lenN bc) (q + 7 + total l + 20)); [lia|]. cbn [orb].
      do 3 (rewrite fetch_at by (auto; cbn [wbytes]; lia); cbn [lift wbytes]).
      erewrite interp_call_no; [|exact HH|exact HR]. reflexivity.
  Qed.
  Lemma does_switch key l effs c : key < 2 ^ 16 -> switch_code key l c -> does_all l effs -> does host lm c (switch_effect host key effs).
  Proof.
    intros K SC DA bc q WB LB P s h s' h' (h1 & r & HH & HR & CH).
    destruct (switch_step bc q key l c s h h1 r WB LB K SC P HH HR) as (after & t & LC & PB & LT & ST).
    rewrite LC. replace (q + (7 + total l + after)) with (q + 7 + total l + after) by lia.
    eapply switch_finish; [exact WB|exact LB|exact DA|exact PB|reflexivity|exact LT|exact ST|exact CH].
  Qed.
End Run.
