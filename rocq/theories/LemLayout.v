(** The code the compiler produces for conditionals and switches has the layout of SpecFlow. *)
From Coq Require Import Strings.String ZifyBool ZifyNat ZifyN.
From Verif Require Import Base SpecBytes ModelVM SpecVM ModelImage ModelText ModelNames ModelParse ModelSchema LemBase LemParse LemGrow SpecFlow.
Ltac Zify.zify_post_hook ::= Z.div_mod_to_equations.

Lemma bind_inv {A B} (m : par A) (k : A -> par B) p b p' : pbind m k p = POk b p' -> exists a p1, m p = POk a p1 /\ k a p1 = POk b p'.
Proof. unfold pbind. destruct (m p) eqn:E; try discriminate. eauto. Qed.
Lemma pok_inj {A} (a b : A) p q : POk a p = POk b q -> p = q.
Proof. congruence. Qed.
Lemma keeps_all a b : keeps (lenN a) a b -> exists c, b = a ++ c.
Proof.
  intros (L & E). exists (skipn (N.to_nat (lenN a)) b). rewrite <- (firstn_skipn (N.to_nat (lenN a)) b) at 1. f_equal.
  rewrite E. unfold lenN. rewrite Nat2N.id. apply firstn_all.
Qed.
Lemma safe_appends {A} (m : par A) p a p' : (forall n, safe n m any) -> m p = POk a p' -> exists c, appends m p c p'.
Proof.
  intros S0 E. destruct (S0 (lenN (p_out p)) p a p' E (N.le_refl _)) as (K & _). apply keeps_all in K as (c & K). exists c. exists a. auto.
Qed.
Lemma safe_err {A} (m : par A) p a p' Q : (forall n, safe n m Q) -> m p = POk a p' -> p_err p' = false -> p_err p = false.
Proof.
  intros S0 E F. destruct (S0 0 p a p' E (N.le_0_l _)) as (_ & K & _). destruct (p_err p); auto. rewrite K in F; auto.
Qed.
Lemma safe_len {A} (m : par A) p a p' Q : (forall n, safe n m Q) -> m p = POk a p' -> lenN (p_out p) <= lenN (p_out p').
Proof. intros S0 E. destruct (S0 (lenN (p_out p)) p a p' E (N.le_refl _)) as ((K & _) & _). exact K. Qed.

Lemma consume_out k p a p' : consume k p = POk a p' -> p_out p' = p_out p.
Proof.
  unfold consume, at_kind, get, pbind. destruct (is_kind k (p_cur p)).
  - unfold advance. destruct (next_token _ _) as ((toks & t) & bad). intros E. injection E as _ <-. destruct bad; reflexivity.
  - intros E. injection E as _ <-. reflexivity.
Qed.
Lemma advance_out p a p' : advance p = POk a p' -> p_out p' = p_out p.
Proof. unfold advance. destruct (next_token _ _) as ((toks & t) & bad). intros E. injection E as _ <-. destruct bad; reflexivity. Qed.
Lemma write_mid off l a x b p : p_out p = a ++ x ++ b -> lenN a = off -> lenN x = lenN l ->
  write_at off l p = POk tt (set_out (a ++ l ++ b) p).
Proof.
  intros O1 <- L. unfold write_at, upd_p. rewrite O1, !lenN_app. destruct (N.ltb_spec (lenN a + (lenN x + lenN b)) (lenN a + lenN l)); [lia|].
  do 2 f_equal. rewrite firstn_app. unfold lenN at 1 2 3. rewrite Nat2N.id, firstn_all, Nat.sub_diag. cbn [firstn]. rewrite app_nil_r.
  do 2 f_equal. rewrite <- L. replace (N.to_nat (N.of_nat (length a) + lenN x)) with (length (a ++ x)) by (rewrite app_length; unfold lenN; lia).
  rewrite app_assoc, skipn_app, skipn_all, Nat.sub_diag. reflexivity.
Qed.
Lemma le4_len v : lenN (le4 v) = 4.
Proof. reflexivity. Qed.
Lemma rel_bytes a b d : a = b + d -> le4 (rel a b) = bytes_of LE 4 d.
Proof.
  intros ->. rewrite le4_bytes. unfold rel, ofZ. replace (Z.of_N (b + d) - Z.of_N b)%Z with (Z.of_N d) by lia.
  rewrite <- (bytes_of_mod LE 4 d). f_equal. change (2 ^ (8 * Z.of_N 4))%Z with (2 ^ 32)%Z. change (256 ^ N.of_nat 4) with (2 ^ 32).
  rewrite <- (N2Z.id (d mod 2 ^ 32)). f_equal. rewrite N2Z.inj_mod. reflexivity.
Qed.

Ltac lens := cbn [p_out set_out more]; repeat rewrite ?lenN_app, ?lenN_bytes_of, ?lenN_cons, ?lenN_nil, ?le4_len; lia.

Lemma safe_cond E f n : safe n (consume TLparen ;; parse_expression E f) any.
Proof. pose proof safe_expression. safes. Qed.
Lemma safe_else E f n : safe n (let% i := at_kind TIf in if i then advance ;; parse_if E f else parse_block E f) any.
Proof. destruct (safe_stmt n E f) as (_ & SI & SB & _). safes. Qed.

Lemma if_layout E f p p' : parse_if E (S f) p = POk tt p' ->
  exists cond thn els pa pb pc pf,
    appends (consume TLparen ;; parse_expression E f) p cond pa /\
    consume TRparen pa = POk tt pb /\
    appends (parse_block E f) (more [0x50; 0; 0; 0; 0] pb) thn pc /\
    (let pd := set_out (p_out p ++ cond ++ [0x50] ++ bytes_of LE 4 (lenN thn + 5) ++ thn ++ [0x52; 0; 0; 0; 0]) pc in
     if is_kind TElse (p_cur pc)
     then exists pe, advance pd = POk tt pe /\
          appends (let% i := at_kind TIf in if i then advance ;; parse_if E f else parse_block E f) pe els pf
     else els = [] /\ pf = pd) /\
    p' = set_out (p_out p ++ if_code cond thn els) pf.
Proof.
  intros R. cbn [parse_if] in R.
  apply bind_inv in R as ([] & p1 & C1 & R). apply bind_inv in R as (ty & pa & C2 & R).
  apply bind_inv in R as ([] & pb & C3 & R).
  assert (C : (consume TLparen ;; parse_expression E f) p = POk ty pa) by (unfold pbind; rewrite C1; exact C2).
  destruct (safe_appends _ _ _ _ (safe_cond E f) C) as (cond & AC).
  apply bind_inv in R as (jf & p2 & HJ & R). injection HJ as <- <-.
  apply bind_inv in R as ([] & p3 & HE & R). injection HE as <-.
  apply bind_inv in R as ([] & pc & CB & R).
  destruct (safe_appends _ _ _ _ (fun n => proj1 (proj2 (proj2 (safe_stmt n E f)))) CB) as (thn & AB).
  change (set_out _ pb) with (more [0x50; 0; 0; 0; 0] pb) in AB.
  apply bind_inv in R as (je & p5 & HJ & R). injection HJ as <- <-.
  apply bind_inv in R as ([] & p6 & HE & R). injection HE as <-.
  apply bind_inv in R as (oth & p7 & HJ & R). injection HJ as <- <-.
  apply bind_inv in R as ([] & pd & HW & R).
  pose proof (consume_out _ _ _ _ C3) as OB. destruct AC as (ty' & C' & OA). destruct AB as (u & _ & OC).
  cbn [more p_out set_out] in OC, R, HW. rewrite OC, OB, OA in HW. rewrite OC, OB, OA in R. 
  rewrite write_mid with (a := p_out p ++ cond ++ [0x50]) (x := [0; 0; 0; 0]) (b := thn ++ [0x52; 0; 0; 0; 0]) in HW;
    [|cbn [p_out set_out]; rewrite <- !app_assoc; reflexivity|lens|reflexivity].
  rewrite (rel_bytes _ _ (lenN thn + 5)) in HW by (lens). injection HW as <-.
  apply bind_inv in R as (e & p8 & HE & R). injection HE as <- <-.
  apply bind_inv in R as ([] & pf & CE & R).
  set (pd := set_out _ _) in CE, R.
  assert (ED : pd = set_out (p_out p ++ cond ++ [0x50] ++ bytes_of LE 4 (lenN thn + 5) ++ thn ++ [0x52; 0; 0; 0; 0]) pc).
  { unfold pd. rewrite <- !app_assoc. reflexivity. }
  apply bind_inv in R as (stop & p9 & HE & R). injection HE as <- <-.
  assert (EL : exists els, p_out pf = p_out pd ++ els /\
     (if is_kind TElse (p_cur pc)
      then exists pe, advance pd = POk tt pe /\
        appends (let% i := at_kind TIf in if i then advance ;; parse_if E f else parse_block E f) pe els pf
      else els = [] /\ pf = pd)).
  { change (p_cur pd) with (p_cur pc) in CE. destruct (is_kind TElse (p_cur pc)).
    - apply bind_inv in CE as ([] & pe & CA & CE). destruct (safe_appends _ _ _ _ (safe_else E f) CE) as (els & AE).
      exists els. split; [|eauto]. destruct AE as (x & _ & ->). f_equal. apply (advance_out _ _ _ CA).
    - injection CE as <-. exists []. rewrite app_nil_r. auto. }
  destruct EL as (els & OF & PF). rewrite ED in OF, PF. cbn [p_out set_out] in OF.
  exists cond, thn, els, pa, pb, pc, pf.
  split; [exists ty'; auto|]. split; [exact C3|]. split; [exists tt; split; [exact CB|exact OC]|]. split; [exact PF|].
  rewrite write_mid with (a := p_out p ++ cond ++ [0x50] ++ bytes_of LE 4 (lenN thn + 5) ++ thn ++ [0x52]) (x := [0; 0; 0; 0]) (b := els) in R;
    [|rewrite OF, <- !app_assoc; reflexivity|lens|reflexivity].
  rewrite (rel_bytes _ _ (lenN els)) in R by (rewrite OF; lens).
  apply pok_inj in R. rewrite <- R. unfold if_code. rewrite <- !app_assoc. reflexivity.
Qed.

(** ** Switches *)
Lemma total_snoc l o c : total (l ++ [(o, c)]) = total l + lenN c + 5.
Proof. induction l as [|(x & y) l IH]; cbn [app total]; [lia|]. rewrite IH. lia. Qed.
Lemma cases_snoc l o c : forall a, cases_from a (l ++ [(o, c)]) = cases_from a l ++ match o with Some v => [(v, a + total l)] | None => [] end.
Proof.
  induction l as [|(x & y) l IH]; intros a; cbn [app cases_from total].
  - rewrite app_nil_r, N.add_0_r. reflexivity.
  - rewrite IH, <- app_assoc. do 2 f_equal. destruct o; auto. do 2 f_equal. lia.
Qed.
Lemma default_snoc l o c : forall a, default_from a (l ++ [(o, c)]) = match o with None => Some (a + total l) | Some _ => default_from a l end.
Proof.
  induction l as [|(x & y) l IH]; intros a; cbn [app default_from total].
  - destruct o; auto. f_equal. lia.
  - rewrite IH. destruct o; auto. f_equal. lia.
Qed.
Lemma values_app a b : values (a ++ b) = values a ++ values b.
Proof. induction a as [|([v|] & c) a IH]; cbn [app values]; auto. now rewrite IH. Qed.
Lemma values_cases l : forall a, map fst (cases_from a l) = values l.
Proof. induction l as [|([v|] & c) l IH]; intros a; cbn [cases_from values app map]; rewrite ?IH; auto. Qed.

Definition zeros (l : list body) : list N := flat_map (fun b => snd b ++ [0x52; 0; 0; 0; 0]) l.
Fixpoint jumps_of (a : N) (l : list body) : list N :=
  match l with [] => [] | (_, c) :: r => (a + lenN c) :: jumps_of (a + lenN c + 5) r end.
Lemma zeros_len l : lenN (zeros l) = total l.
Proof. induction l as [|(o & c) l IH]; [reflexivity|]. cbn [zeros flat_map snd total]. rewrite !lenN_app. fold (zeros l). rewrite IH. change (lenN [82; 0; 0; 0; 0]) with 5. lia. Qed.
Lemma zeros_snoc l o c : zeros (l ++ [(o, c)]) = zeros l ++ c ++ [0x52; 0; 0; 0; 0].
Proof. unfold zeros. rewrite flat_map_app. cbn [flat_map snd]. now rewrite app_nil_r. Qed.
Lemma jumps_snoc l o c : forall a, jumps_of a (l ++ [(o, c)]) = jumps_of a l ++ [a + total l + lenN c].
Proof.
  induction l as [|(x & y) l IH]; intros a; cbn [app jumps_of total].
  - do 2 f_equal. lia.
  - rewrite IH. do 3 f_equal. lia.
Qed.
Lemma patch_spec l after tab : forall pre p, p_out p = pre ++ zeros l ++ tab ->
  patch_jumps (jumps_of (lenN pre) l) (lenN pre + total l + after) p = POk tt (set_out (pre ++ bodies_code l after ++ tab) p).
Proof.
  induction l as [|(o & c) l IH]; intros pre p O1.
  - cbn [jumps_of patch_jumps bodies_code app]. cbn [zeros flat_map app] in O1. rewrite <- O1. destruct p; reflexivity.
  - cbn [jumps_of patch_jumps bodies_code]. cbn [zeros flat_map snd] in O1. fold (zeros l) in O1.
    rewrite (rel_bytes _ _ (total l + after)) by (cbn [total]; lia).
    erewrite bind_ok; [|apply write_mid with (a := pre ++ c ++ [0x52]) (x := [0; 0; 0; 0]) (b := zeros l ++ tab)].
    + specialize (IH (pre ++ c ++ [0x52] ++ bytes_of LE 4 (total l + after))).
      replace (lenN (pre ++ c ++ [0x52] ++ bytes_of LE 4 (total l + after))) with (lenN pre + lenN c + 5) in IH by lens.
      cbn [total]. replace (lenN pre + (lenN c + 5 + total l) + after) with (lenN pre + lenN c + 5 + total l + after) by lia.
      rewrite IH; [|cbn [p_out set_out]; now rewrite <- !app_assoc].
      rewrite <- !app_assoc. reflexivity.
    + rewrite O1, <- !app_assoc. reflexivity.
    + lens.
    + reflexivity.
Qed.

Lemma target_dispatch cs d v : case_target cs d v = dispatch cs d v.
Proof.
  unfold case_target. induction cs as [|(x & o) cs IH]; cbn [find dispatch fst]; auto. rewrite N.eqb_sym. destruct (v =? x); auto.
Qed.
Lemma fold_min r : forall m, let x := fold_left (fun m (c : N * N) => N.min m (fst c)) r m in x <= m /\ Forall (fun c => x <= fst c) r.
Proof.
  induction r as [|c r IH]; intros m; cbn [fold_left]; [split; [lia|constructor]|].
  destruct (IH (N.min m (fst c))) as (A & B). cbv zeta in *. split; [lia|]. constructor; [lia|exact B].
Qed.
Lemma fold_max r : forall m, let x := fold_left (fun m (c : N * N) => N.max m (fst c)) r m in m <= x /\ Forall (fun c => fst c <= x) r.
Proof.
  induction r as [|c r IH]; intros m; cbn [fold_left]; [split; [lia|constructor]|].
  destruct (IH (N.max m (fst c))) as (A & B). cbv zeta in *. split; [lia|]. constructor; [lia|exact B].
Qed.
Lemma fold_max_in (P : N -> Prop) r : forall m, P m -> Forall (fun c => P (fst c)) r -> P (fold_left (fun m (c : N * N) => N.max m (fst c)) r m).
Proof.
  induction r as [|c r IH]; intros m M F; cbn [fold_left]; auto. inversion F; subst. apply IH; auto.
  destruct (N.max_spec m (fst c)) as [(_ & ->)|(_ & ->)]; auto.
Qed.
Lemma dense_spec cs mn mx : dense cs = Some (mn, mx) -> Forall (fun c => fst c < 2 ^ 64) cs ->
  Forall (fun c => mn <= fst c <= mx) cs /\ mn <= mx /\ mx < 2 ^ 64.
Proof.
  destruct cs as [|c r]; [discriminate|]. unfold dense. set (a := fold_left (fun m c => N.min m (fst c)) r (fst c)). set (b := fold_left (fun m c => N.max m (fst c)) r (fst c)).
  destruct (_ && _); [|discriminate]. intros E F. injection E as <- <-.
  destruct (fold_min r (fst c)) as (A1 & A2). destruct (fold_max r (fst c)) as (B1 & B2). fold a in A1, A2. fold b in B1, B2. cbv zeta in *.
  inversion F as [|? ? F1 F2]; subst. split; [|split; [lia|]].
  - constructor; [lia|]. rewrite Forall_forall in *. intros x I. specialize (A2 x I). specialize (B2 x I). cbn in *. lia.
  - apply (fold_max_in (fun x => x < 2 ^ 64)); auto.
Qed.
Lemma flat_map_map {A B C} (f : B -> list C) (g : A -> B) l : flat_map f (map g l) = flat_map (fun x => f (g x)) l.
Proof. induction l; cbn; congruence. Qed.
Lemma flat_map_eq {A B} (f g : A -> list B) l : (forall x, f x = g x) -> flat_map f l = flat_map g l.
Proof. intros E. induction l; cbn; congruence. Qed.
Lemma table_dense cs d mn mx : dense cs = Some (mn, mx) -> mn <= mx -> table_code cs d = dense_table mn (N.to_nat (mx - mn)) cs d.
Proof.
  intros D L. unfold table_code, dense_table. rewrite D. rewrite !le8_bytes, le4_bytes. rewrite N2Nat.id. replace (mn + (mx - mn)) with mx by lia.
  do 3 f_equal. unfold up_to. rewrite flat_map_map. apply flat_map_eq. intros i. now rewrite le4_bytes, target_dispatch.
Qed.
Lemma table_list cs d : dense cs = None -> table_code cs d = list_table cs d.
Proof.
  intros D. unfold table_code, list_table. rewrite D, le2_bytes, le4_bytes. do 2 f_equal. apply flat_map_eq. intros (v & o). now rewrite le8_bytes, le4_bytes.
Qed.

(** The end of a switch, with bodies [l] behind the instruction at [lenN pre] *)
Lemma tail_spec pre key l p p' default : p_out p = pre ++ ([0x51] ++ le2 key ++ [0; 0; 0; 0]) ++ zeros l ->
  default = match default_from 0 l with Some d => d | None => no_default end ->
  Forall (fun c => fst c < 2 ^ 64) (cases_from 0 l) -> lenN (cases_from 0 l) < 2 ^ 16 ->
  switch_tail (lenN pre) (cases_from 0 l) (jumps_of (lenN pre + 7) l) default p = POk tt p' -> lenN (p_out p') < 2 ^ 31 ->
  exists q c, consume TRbrace p = POk tt q /\ p' = set_out (pre ++ c) q /\ switch_code key l c.
Proof.
  intros O1 DF V64 C16 R LN. unfold switch_tail in R. apply bind_inv in R as ([] & q & CR & R). exists q.
  pose proof (consume_out _ _ _ _ CR) as OQ. rewrite O1 in OQ.
  apply bind_inv in R as (start & q1 & HE & R). injection HE as <- <-. rewrite OQ in R.
  assert (ST : lenN (pre ++ ([0x51] ++ le2 key ++ [0; 0; 0; 0]) ++ zeros l) = lenN pre + 7 + total l).
  { rewrite !lenN_app, zeros_len, le2_bytes, lenN_bytes_of. change (lenN [81]) with 1. change (lenN [0; 0; 0; 0]) with 4. lia. }
  rewrite ST in R. set (size := table_size (cases_from 0 l)) in R.
  set (op := if some (dense (cases_from 0 l)) then 0x53 else 0x51).
  apply bind_inv in R as ([] & q2 & HW & R).
  assert (O2 : p_out q2 = pre ++ ([op] ++ le2 key ++ [0; 0; 0; 0]) ++ zeros l /\ q2 = set_out (p_out q2) q).
  { unfold op. destruct (some (dense _)); cbn [when] in HW.
    - rewrite write_mid with (a := pre) (x := [0x51]) (b := le2 key ++ [0; 0; 0; 0] ++ zeros l) in HW;
        [|rewrite OQ, <- !app_assoc; reflexivity|reflexivity|reflexivity].
      apply pok_inj in HW. rewrite <- HW. cbn [p_out set_out]. rewrite <- !app_assoc. split; reflexivity.
    - apply pok_inj in HW. rewrite <- HW. split; [exact OQ|destruct q; reflexivity]. }
  destruct O2 as (O2 & Q2).
  apply bind_inv in R as ([] & q3 & HE & R). apply pok_inj in HE.
  set (dv := if default =? no_default then _ else default) in HE.
  apply bind_inv in R as ([] & q4 & HP & R).
  rewrite O2 in HE.
  replace (lenN pre + 7 + total l + size) with (lenN (pre ++ [op] ++ le2 key ++ [0; 0; 0; 0]) + total l + size) in HP
    by (rewrite !lenN_app, le2_bytes, lenN_bytes_of; change (lenN [op]) with 1; change (lenN [0; 0; 0; 0]) with 4; lia).
  replace (lenN pre + 7) with (lenN (pre ++ [op] ++ le2 key ++ [0; 0; 0; 0])) in HP
    by (rewrite !lenN_app, le2_bytes, lenN_bytes_of; change (lenN [op]) with 1; change (lenN [0; 0; 0; 0]) with 4; lia).
  rewrite patch_spec with (tab := table_code (cases_from 0 l) dv) in HP.
  2: { rewrite <- HE. cbn [p_out set_out]. rewrite <- !app_assoc. reflexivity. }
  apply pok_inj in HP.
  rewrite (rel_bytes _ _ (total l)) in R by lia.
  rewrite write_mid with (a := pre ++ [op] ++ le2 key) (x := [0; 0; 0; 0]) (b := bodies_code l size ++ table_code (cases_from 0 l) dv) in R.
  2: { rewrite <- HP. cbn [p_out set_out]. rewrite <- !app_assoc. reflexivity. }
  2: { rewrite !lenN_app, le2_bytes, lenN_bytes_of. change (lenN [op]) with 1. lia. }
  2: reflexivity.
  apply pok_inj in R.
  assert (R' : p' = set_out (pre ++ [op] ++ bytes_of LE 2 key ++ bytes_of LE 4 (total l) ++ bodies_code l size ++ table_code (cases_from 0 l) dv) q).
  { rewrite <- R, <- HP, <- HE, Q2. rewrite <- !app_assoc. reflexivity. }
  clear R HP HE. exists ([op] ++ bytes_of LE 2 key ++ bytes_of LE 4 (total l) ++ bodies_code l size ++ table_code (cases_from 0 l) dv).
  split; [exact CR|]. split; [exact R'|].
  assert (SZ : lenN (table_code (cases_from 0 l) dv) = size).
  { unfold size, table_size, table_code. destruct (dense (cases_from 0 l)) as [(mn & mx)|].
    - rewrite !lenN_app, !le8_bytes, le4_bytes, !lenN_bytes_of. unfold up_to. rewrite flat_map_map.
      assert (FL : forall k (g : nat -> N), lenN (flat_map (fun i => le4 (g i)) k) = lenN k * 4).
      { intros k g. induction k as [|x k IH]; [reflexivity|]. cbn [flat_map]. rewrite lenN_app, IH, le4_len. unfold lenN. cbn [length]. lia. }
      rewrite FL. unfold lenN at 1. rewrite seq_length. change (N.of_nat 8) with 8. change (N.of_nat 4) with 4. lia.
    - rewrite !lenN_app, le2_bytes, le4_bytes, !lenN_bytes_of.
      assert (FL : forall k : list (N * N), lenN (flat_map (fun c => le8 (fst c) ++ le4 (snd c)) k) = lenN k * 12).
      { intros k. induction k as [|x k IH]; [reflexivity|]. cbn [flat_map]. rewrite !lenN_app, IH, le4_len, le8_bytes, lenN_bytes_of. unfold lenN. cbn [length]. lia. }
      rewrite FL. change (N.of_nat 2) with 2. change (N.of_nat 4) with 4. lia. }
  assert (BL : forall k z, lenN (bodies_code k z) = total k).
  { clear. intros k z. induction k as [|(o & c) k IH]; cbn [bodies_code total]; [reflexivity|]. rewrite !lenN_app, IH, lenN_bytes_of. change (lenN [82]) with 1. lia. }
  rewrite R' in LN. cbn [p_out set_out] in LN. rewrite !lenN_app, BL, SZ, !lenN_bytes_of in LN.
  assert (DV : dv = default_offset l size).
  { unfold dv, default_offset. rewrite DF. destruct (default_from 0 l) as [d|] eqn:D0.
    - assert (DB : forall k a x, default_from a k = Some x -> a <= x <= a + total k).
      { clear. induction k as [|(o & c) k IH]; intros a x E; cbn [default_from total] in *; [discriminate|].
        destruct (default_from (a + lenN c + 5) k) eqn:F; [injection E as <-; apply IH in F; lia|].
        destruct o; [discriminate|]. injection E as <-. lia. }
      apply DB in D0. unfold no_default. destruct (N.eqb_spec d 4294967295); lia.
    - rewrite N.eqb_refl. unfold rel, ofZ. replace (Z.of_N (lenN pre + 7 + total l + size) - Z.of_N (lenN pre + 7))%Z with (Z.of_N (total l + size)) by lia.
      change (2 ^ Z.of_N (8 * 4))%Z with 4294967296%Z. rewrite Z.mod_small by lia. lia. }
  rewrite DV. unfold op. destruct (dense (cases_from 0 l)) as [(mn & mx)|] eqn:D; cbn [some].
  - destruct (dense_spec _ _ _ D V64) as (D1 & D2 & D3).
    assert (S2 : size = 20 + 4 * (N.of_nat (N.to_nat (mx - mn)) + 1)) by (unfold size, table_size; rewrite D; lia).
    rewrite (table_dense _ _ _ _ D D2). rewrite S2. apply code_dense.
    + eapply Forall_impl; [|exact D1]. cbn. intros. lia.
    + lia.
  - assert (S2 : size = 6 + 12 * lenN (cases_from 0 l)) by (unfold size, table_size; rewrite D; lia).
    rewrite (table_list _ _ D). rewrite S2. apply code_list; auto.
Qed.

Lemma ofZ8_bound z : ofZ 8 z < 2 ^ 64.
Proof. unfold ofZ. change (2 ^ Z.of_N (8 * 8))%Z with 18446744073709551616%Z. change (2 ^ 64) with 18446744073709551616. lia. Qed.
Lemma case_value_bound p v p' : case_value p = POk v p' -> v < 2 ^ 64.
Proof.
  unfold case_value. intros R. apply bind_inv in R as (c & p1 & HE & R). destruct (tk c);
    try (injection R as <- _; reflexivity).
  - apply bind_inv in R as ([] & p2 & _ & R). apply bind_inv in R as (dot & p3 & _ & R). destruct dot.
    + apply bind_inv in R as ([] & p4 & _ & R). apply bind_inv in R as (vn & p5 & _ & R). apply bind_inv in R as ([] & p6 & _ & R).
      apply bind_inv in R as (ed & p7 & _ & R). destruct ed as [e|].
      * destruct (find _ _) as [(n & z)|]; [injection R as <- _; apply ofZ8_bound|].
        apply bind_inv in R as ([] & p8 & _ & R). injection R as <- _. reflexivity.
      * apply bind_inv in R as ([] & p8 & _ & R). injection R as <- _. reflexivity.
    + apply bind_inv in R as ([] & p4 & _ & R). injection R as <- _. reflexivity.
  - apply bind_inv in R as (z & p2 & _ & R). apply bind_inv in R as ([] & p3 & _ & R). injection R as <- _. apply ofZ8_bound.
Qed.
Lemma key_bound t s : snd (strtab_add t s) < 2 ^ 16.
Proof. unfold strtab_add. destruct (strtab_find t s 0); cbn [snd]; apply N.mod_lt; discriminate. Qed.

Lemma safe_label n : safe n (advance ;; let% v := case_value in consume TColon ;; ret v) any.
Proof. pose proof safe_case_value. safes. Qed.
Lemma safe_body E f n : safe n (let% b := at_kind TLbrace in if b then parse_block E f else parse_field E f) any.
Proof. destruct (safe_stmt n E f) as (SF & SI & SB & _). safes. Qed.
Lemma bind_assoc {A B C} (m : par A) (k : A -> par B) (l : B -> par C) p : pbind (pbind m k) l p = pbind m (fun a => pbind (k a) l) p.
Proof. unfold pbind. destruct (m p); reflexivity. Qed.
Lemma when_error b p p' : when b error p = POk tt p' -> p_err p' = false -> b = false /\ p' = p.
Proof. destruct b; cbn; intros R; injection R as <-; [discriminate|auto]. Qed.
Lemma consume_kind k p p' : consume k p = POk tt p' -> p_err p' = false -> tk (p_cur p) = k.
Proof.
  unfold consume, at_kind, get, pbind, is_kind. destruct (kind_eq_dec _ _); auto. intros R. injection R as <-. discriminate.
Qed.
Lemma body_inv E f p j p' :
  ((let% b := at_kind TLbrace in if b then parse_block E f else parse_field E f) ;;
   let% j := here in emit ([82] ++ le4 0) ;; ret j) p = POk j p' ->
  exists c q, appends (if is_kind TLbrace (p_cur p) then parse_block E f else parse_field E f) p c q /\
    p' = more [0x52; 0; 0; 0; 0] q /\ j = lenN (p_out p) + lenN c.
Proof.
  intros R. apply bind_inv in R as ([] & q & B & R). destruct (safe_appends _ _ _ _ (safe_body E f) B) as (c & x & _ & A).
  exists c, q. split; [exists tt; split; auto|].
  apply bind_inv in R as (j' & q1 & HE & R). injection HE as <- <-. apply bind_inv in R as ([] & q2 & HE & R). injection HE as <-.
  injection R as <- <-. split; [reflexivity|]. rewrite A. apply lenN_app.
Qed.
Lemma rel_small a b d : a = b + d -> d < 2 ^ 32 -> rel a b = d.
Proof.
  intros -> L. unfold rel, ofZ. replace (Z.of_N (b + d) - Z.of_N b)%Z with (Z.of_N d) by lia.
  change (2 ^ Z.of_N (8 * 4))%Z with 4294967296%Z. rewrite Z.mod_small by lia. lia.
Qed.

Definition default_value (l : list body) : N := match default_from 0 l with Some d => d | None => no_default end.
Definition room (key : N) (l : list body) : list N := ([0x51] ++ le2 key ++ [0; 0; 0; 0]) ++ zeros l.
Lemma room_len key l : lenN (room key l) = 7 + total l.
Proof. unfold room. rewrite !lenN_app, zeros_len, le2_bytes, lenN_bytes_of. change (lenN [81]) with 1. change (lenN [0; 0; 0; 0]) with 4. lia. Qed.
Lemma room_snoc key l o c : room key l ++ c ++ [0x52; 0; 0; 0; 0] = room key (l ++ [(o, c)]).
Proof. unfold room. rewrite zeros_snoc, <- !app_assoc. reflexivity. Qed.

Lemma loop_back E f loc cs js d p p' : case_loop E f loc cs js d p = POk tt p' ->
  (p_err p' = false -> p_err p = false) /\ lenN (p_out p) <= lenN (p_out p').
Proof.
  intros R. destruct (safe_stmt 0 E f) as (_ & _ & _ & _ & SL).
  assert (JF : Forall (fun j => 0 <= j) js) by (apply Forall_forall; intros; lia).
  destruct (SL loc cs js d (N.le_0_l _) JF p tt p' R (N.le_0_l _)) as ((L & _) & X & _). split; [|exact L].
  intros NE. destruct (p_err p); auto. rewrite X in NE; auto.
Qed.
Lemma body_back E f p c q : appends (if is_kind TLbrace (p_cur p) then parse_block E f else parse_field E f) p c q ->
  (p_err q = false -> p_err p = false) /\ p_out q = p_out p ++ c.
Proof.
  intros (x & R & O1). split; [|exact O1]. destruct (safe_stmt 0 E f) as (S1 & _ & S3 & _). intros NE.
  assert (S0 : safe 0 (if is_kind TLbrace (p_cur p) then parse_block E f else parse_field E f) any) by (destruct (is_kind _ _); assumption).
  destruct (S0 p x q R (N.le_0_l _)) as (_ & X & _). destruct (p_err p); auto. rewrite X in NE; auto.
Qed.
Lemma tail_back loc cs js d p p' : switch_tail loc cs js d p = POk tt p' -> p_err p' = false ->
  exists q, consume TRbrace p = POk tt q /\ p_err q = false.
Proof.
  intros R NE. unfold switch_tail in R. apply bind_inv in R as ([] & q & C & R). exists q. split; auto.
  apply bind_inv in R as (st & q1 & HE & R). injection HE as <- <-. cbv zeta in R.
  assert (JF : Forall (fun j => 0 <= j) js) by (apply Forall_forall; intros; lia).
  assert (S0 : forall m, m q = POk tt p' -> safe 0 m any -> p_err q = false).
  { intros m M S0. destruct (S0 q tt p' M (N.le_0_l _)) as (_ & X & _). destruct (p_err q); auto. rewrite X in NE; auto. }
  apply (S0 _ R). eapply safe_bind; [apply safe_when, safe_write; lia|]. intros _ _.
  eapply safe_bind; [apply safe_emit|]. intros _ _. eapply safe_bind; [now apply safe_patch|]. intros _ _. apply safe_write. lia.
Qed.
Lemma case_value_out p v p' : case_value p = POk v p' -> p_out p' = p_out p.
Proof.
  intros R. unfold case_value in R. apply bind_inv in R as (c & q1 & HE & R). injection HE as <- <-.
  destruct (tk (p_cur p)); try (apply pok_inj in R; now subst).
  - apply bind_inv in R as ([] & q2 & H4 & R). apply bind_inv in R as (dot & q3 & HE & R). injection HE as <- <-.
    rewrite <- (advance_out _ _ _ H4). destruct (is_kind TDot _).
    + apply bind_inv in R as ([] & q4 & H5 & R). apply bind_inv in R as (vn & q5 & HE & R). injection HE as <- <-.
      apply bind_inv in R as ([] & q6 & H6 & R). rewrite <- (advance_out _ _ _ H5), <- (consume_out _ _ _ _ H6).
      apply bind_inv in R as (ed & q7 & HE & R). injection HE as <- <-.
      destruct (find_enum _ _); [destruct (find _ _)|]; try (apply pok_inj in R; now subst);
        apply bind_inv in R as ([] & q8 & HE & R); injection HE as <-; apply pok_inj in R; now subst.
    + apply bind_inv in R as ([] & q8 & HE & R); injection HE as <-; apply pok_inj in R; now subst.
  - apply bind_inv in R as (z & q2 & H4 & R). apply bind_inv in R as ([] & q3 & H5 & R). apply pok_inj in R. subst q3.
    rewrite (advance_out _ _ _ H5). unfold number_i64, of_result in H4. destruct (parse_number_i64 _); [|discriminate]. apply pok_inj in H4. now subst.
Qed.

Lemma loop_layout E key f : forall p p' pre dn,
  case_loop E f (lenN pre) (cases_from 0 dn) (jumps_of (lenN pre + 7) dn) (default_value dn) p = POk tt p' ->
  p_err p' = false -> lenN (p_out p') < 2 ^ 31 -> p_out p = pre ++ room key dn ->
  Forall (fun v => v < 2 ^ 64) (values dn) -> NoDup (values dn) ->
  exists rest q q', reads_cases E f p rest q /\ tk (p_cur q) = TRbrace /\ consume TRbrace q = POk tt q' /\ NoDup (values (dn ++ rest)) /\
    (lenN (values (dn ++ rest)) < 2 ^ 16 -> exists c, p' = set_out (pre ++ c) q' /\ switch_code key (dn ++ rest) c).
Proof.
  induction f as [|f IH]; intros p p' pre dn R NE LN O1 V64 ND; [discriminate|].
  assert (E0 : p_err p = false) by (apply (loop_back _ _ _ _ _ _ _ _ R); exact NE).
  cbn [case_loop] in R.
  apply bind_inv in R as (t & p1 & HE & R). injection HE as <- <-. apply bind_inv in R as (err & p1 & HE & R). injection HE as <- <-.
  rewrite E0, orb_false_r in R. destruct (is_kind TRbrace (p_cur p) || is_kind TEof (p_cur p)) eqn:KE.
  - (* the end *)
    assert (NK : tk (p_cur p) <> TCase /\ tk (p_cur p) <> TDefault).
    { unfold is_kind in KE. destruct (kind_eq_dec (tk (p_cur p)) TRbrace) as [->|]; [split; discriminate|].
      destruct (kind_eq_dec (tk (p_cur p)) TEof) as [->|]; [split; discriminate|discriminate]. }
    destruct (tail_back _ _ _ _ _ _ R NE) as (q' & CR & EQ).
    exists [], p, q'. rewrite app_nil_r.
    split; [apply cases_end; apply NK|]. split; [apply (consume_kind _ _ _ CR EQ)|]. split; [exact CR|]. split; [exact ND|].
    intros C16.
    destruct (tail_spec pre key dn p p' (default_value dn) O1 eq_refl) as (q2 & c & C2 & P2 & S2); auto.
    + rewrite <- (values_cases dn 0) in V64. apply Forall_map in V64. exact V64.
    + rewrite <- (values_cases dn 0) in C16. unfold lenN in *. now rewrite map_length in C16.
    + rewrite C2 in CR. apply pok_inj in CR. subst q2. eauto.
  - (* a case, the default, or an error *)
    assert (BAD : (error ;; advance ;; case_loop E f (lenN pre) (cases_from 0 dn) (jumps_of (lenN pre + 7) dn) (default_value dn)) p = POk tt p' -> False).
    { intros R2. apply bind_inv in R2 as ([] & q1 & HE & R2). injection HE as <-. apply bind_inv in R2 as ([] & q2 & HA & R2).
      assert (E2 : p_err q2 = true).
      { destruct (safe_advance 0 _ _ _ HA (N.le_0_l _)) as (_ & X & _). apply X. reflexivity. }
      apply loop_back in R2 as (X & _). rewrite X in E2; [discriminate|exact NE]. }
    destruct (tk (p_cur p)) eqn:KC; try (exfalso; apply BAD; exact R); clear BAD.
    + (* case *)
      apply bind_inv in R as ([] & a1 & H1 & R). apply bind_inv in R as (v & a2 & H2 & R). apply bind_inv in R as ([] & p1 & H3 & R).
      assert (LB : (advance ;; let% v := case_value in consume TColon ;; ret v) p = POk v p1).
      { unfold pbind. rewrite H1, H2, H3. reflexivity. }
      apply bind_inv in R as ([] & p1' & HW & R). apply bind_inv in R as (at_ & p1'' & HE & R). injection HE as <- <-.
      apply bind_inv in R as (j & p3 & HB & R). apply body_inv in HB as (c & p2 & AB & -> & ->).
      destruct (loop_back _ _ _ _ _ _ _ _ R) as (E2 & L2). specialize (E2 NE). cbn [more p_out p_err set_out] in E2, L2.
      destruct (body_back _ _ _ _ _ AB) as (E1 & OB). specialize (E1 E2).
      apply when_error in HW as (NEW & ->); auto.
      assert (O2 : p_out p1 = pre ++ room key dn).
      { rewrite (consume_out _ _ _ _ H3), (case_value_out _ _ _ H2), (advance_out _ _ _ H1). exact O1. }
      assert (AT : lenN (p_out p1) = lenN pre + 7 + total dn) by (rewrite O2, lenN_app, room_len; lia).
      rewrite OB, !lenN_app in L2.
      destruct (IH (more [82; 0; 0; 0; 0] p2) p' pre (dn ++ [(Some v, c)])) as (rest & q & q' & I1 & I2 & I3 & I4 & I5); auto.
      * rewrite cases_snoc, jumps_snoc. unfold default_value. rewrite default_snoc. rewrite N.add_0_l.
        rewrite (rel_small _ _ (total dn)) in R by lia. rewrite AT in R. exact R.
      * cbn [more p_out set_out]. rewrite OB, O2, <- (room_snoc key dn (Some v)), <- !app_assoc. reflexivity.
      * rewrite values_app. apply Forall_app. split; auto. constructor; [|constructor]. apply (case_value_bound _ _ _ H2).
      * rewrite values_app. cbn [values]. apply NoDup_Add with (a := v) (l := values dn).
        { rewrite <- (app_nil_r (values dn)) at 1. apply Add_app. }
        split; auto. intros I. rewrite <- (values_cases dn 0) in I. apply in_map_iff in I as ((x & o) & EX & I). cbn in EX. subst x.
        assert (T : existsb (fun c => fst c =? v) (cases_from 0 dn) = true) by (apply existsb_exists; exists (v, o); split; [auto|apply N.eqb_refl]).
        congruence.
      * exists ((Some v, c) :: rest), q, q'. rewrite <- app_assoc in I4, I5. cbn [app] in I4, I5.
        split; [|auto]. eapply cases_case; eauto.
    + (* default *)
      apply bind_inv in R as ([] & a1 & H1 & R). apply bind_inv in R as ([] & p1 & H3 & R).
      assert (LB : (advance ;; consume TColon) p = POk tt p1).
      { unfold pbind. rewrite H1. exact H3. }
      apply bind_inv in R as (at_ & p1'' & HE & R). injection HE as <- <-.
      apply bind_inv in R as (j & p3 & HB & R). apply body_inv in HB as (c & p2 & AB & -> & ->).
      destruct (loop_back _ _ _ _ _ _ _ _ R) as (E2 & L2). specialize (E2 NE). cbn [more p_out p_err set_out] in E2, L2.
      destruct (body_back _ _ _ _ _ AB) as (E1 & OB). specialize (E1 E2).
      assert (O2 : p_out p1 = pre ++ room key dn).
      { rewrite (consume_out _ _ _ _ H3), (advance_out _ _ _ H1). exact O1. }
      assert (AT : lenN (p_out p1) = lenN pre + 7 + total dn) by (rewrite O2, lenN_app, room_len; lia).
      rewrite OB, !lenN_app in L2.
      destruct (IH (more [82; 0; 0; 0; 0] p2) p' pre (dn ++ [(None, c)])) as (rest & q & q' & I1 & I2 & I3 & I4 & I5); auto.
      * rewrite cases_snoc, jumps_snoc. unfold default_value. rewrite default_snoc, app_nil_r. rewrite N.add_0_l.
        rewrite (rel_small _ _ (total dn)) in R by lia. rewrite AT in R. exact R.
      * cbn [more p_out set_out]. rewrite OB, O2, <- (room_snoc key dn None), <- !app_assoc. reflexivity.
      * rewrite values_app. cbn [values]. now rewrite app_nil_r.
      * rewrite values_app. cbn [values]. now rewrite app_nil_r.
      * exists ((None, c) :: rest), q, q'. rewrite <- app_assoc in I4, I5. cbn [app] in I4, I5.
        split; [|auto]. eapply cases_default; eauto.
Qed.

(** A whole switch, from the keyword on *)
Lemma switch_layout E f p p' : tk (p_cur p) = TSwitch -> p_err p = false -> parse_field E (S f) p = POk tt p' ->
  p_err p' = false -> lenN (p_out p') < 2 ^ 31 ->
  exists pa key pb l q q',
    (advance ;; consume TLparen) p = POk tt pa /\ tk (p_cur pa) = TIdentifier /\
    snd (strtab_add (p_strs pa) (ttext (p_cur pa))) = key /\ key < 2 ^ 16 /\
    (consume TIdentifier ;; add_name (ttext (p_cur pa)) ;; consume TRparen ;; consume TLbrace) pa = POk tt pb /\
    reads_cases E f (more ([0x51] ++ bytes_of LE 2 key ++ [0; 0; 0; 0]) pb) l q /\
    tk (p_cur q) = TRbrace /\ consume TRbrace q = POk tt q' /\ NoDup (values l) /\
    (lenN (values l) < 2 ^ 16 -> exists c, p' = set_out (p_out p ++ c) q' /\ switch_code key l c).
Proof.
  intros K E0 R NE LN. cbn [parse_field] in R. apply bind_inv in R as (err & p1 & HE & R). injection HE as <- <-. rewrite E0 in R.
  apply bind_inv in R as ([] & p1 & HD & R).
  assert (ED : p1 = p).
  { destruct f; cbn [skip_docs] in HD; [discriminate|]. apply bind_inv in HD as (b & p2 & HE & HD). injection HE as <- <-.
    unfold is_kind in HD. rewrite K in HD. cbn in HD. apply pok_inj in HD. auto. }
  subst p1. apply bind_inv in R as (k & p1 & HE & R). injection HE as <- <-. rewrite K in R.
  apply bind_inv in R as ([] & p1 & HA & R). apply bind_inv in R as (loc & p2 & HH & R).
  unfold switch_head in HH. apply bind_inv in HH as ([] & pa & H1 & HH). apply bind_inv in HH as (t & pa' & HE & HH). injection HE as <- <-.
  apply bind_inv in HH as ([] & p3 & H2 & HH). apply bind_inv in HH as (key & p4 & H3 & HH).
  apply bind_inv in HH as ([] & p5 & H4 & HH). apply bind_inv in HH as ([] & pb & H5 & HH).
  apply bind_inv in HH as (loc' & p6 & HE & HH). injection HE as <- <-. apply bind_inv in HH as ([] & p7 & HE & HH). injection HE as <-.
  injection HH as <- <-.
  exists pa, key, pb.
  assert (S3 : p_strs p3 = p_strs pa).
  { clear - H2. unfold consume, at_kind, get, pbind in H2. destruct (is_kind _ _).
    - unfold advance in H2. destruct (next_token _ _) as ((toks & t) & bad). apply pok_inj in H2. subst. destruct bad; reflexivity.
    - apply pok_inj in H2. subst. reflexivity. }
  assert (HK : snd (strtab_add (p_strs pa) (ttext (p_cur pa))) = key /\ p_out p4 = p_out p3).
  { unfold add_name in H3. rewrite S3 in H3. destruct (strtab_add _ _) as (s2 & k2). injection H3 as <- <-. auto. }
  destruct HK as (HK & O4).
  assert (OB : p_out pb = p_out p).
  { rewrite (consume_out _ _ _ _ H5), (consume_out _ _ _ _ H4), O4, (consume_out _ _ _ _ H2), (consume_out _ _ _ _ H1). apply (advance_out _ _ _ HA). }
  assert (E3 : p_err p3 = false).
  { destruct (loop_back _ _ _ _ _ _ _ _ R) as (E2 & _). specialize (E2 NE). cbn [p_err set_out] in E2.
    assert (E5 : p_err p5 = false) by (apply (safe_err _ _ _ _ any (fun n => safe_consume n TLbrace) H5 E2)).
    assert (E4 : p_err p4 = false) by (apply (safe_err _ _ _ _ any (fun n => safe_consume n TRparen) H4 E5)).
    apply (safe_err _ _ _ _ any (fun n => safe_add n _) H3 E4). }
  destruct (loop_layout E key f _ p' (p_out pb) [] R NE LN) as (l & q & q' & I1 & I2 & I3 & I4 & I5).
  - cbn [p_out set_out]. unfold room. cbn [zeros flat_map]. rewrite app_nil_r. reflexivity.
  - constructor.
  - constructor.
  - cbn [app] in I4, I5. exists l, q, q'.
    split; [unfold pbind; rewrite HA; exact H1|]. split; [apply (consume_kind _ _ _ H2 E3)|]. split; [exact HK|].
    split; [rewrite <- HK; apply key_bound|].
    split; [unfold pbind; rewrite H2, H3, H4; exact H5|].
    split; [exact I1|]. split; [exact I2|]. split; [exact I3|]. split; [exact I4|].
    intros C. rewrite <- OB. apply I5. exact C.
Qed.
