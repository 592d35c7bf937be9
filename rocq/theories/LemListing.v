(** Whole files through the inspector. *)
From Coq Require Import Strings.String Sorting.Sorted Lia ZifyBool ZifyNat ZifyN.
From Verif Require Import Base SpecBytes LemBase ModelWord LemWord ModelVM SpecVM ModelImage SpecImage LemImage SpecNames LemJnum ModelInspect SpecInspect LemInspect.
Local Open Scope string_scope. Local Open Scope N_scope.
Ltac Zify.zify_post_hook ::= Z.div_mod_to_equations.

Lemma code_cons i p : code (i :: p) = (instr_bytes i ++ code p)%list.
Proof. reflexivity. Qed.
Lemma listing_ok rtl names : forall p off fuel, Forall (well_formed names) p -> Forall (inspector_reads rtl) p ->
  off + lenN (code p) <= 2 ^ 32 -> (length (code p) <= fuel)%nat -> listing rtl fuel off (code p) = Some (lines_of off p).
Proof.
  induction p as [|i p IH]; intros off fuel W R B F; [destruct fuel; reflexivity|].
  inversion W as [|? ? W1 W2]; inversion R as [|? ? R1 R2]; subst. rewrite code_cons in *. unfold instr_bytes in B, F |- *. cbn [app length] in B, F |- *.
  rewrite lenN_cons in B. destruct fuel as [|fuel]; [lia|]. cbn [listing]. rewrite (operands_ok rtl names i (code p) W1 R1). cbn [lines_of].
  rewrite lenN_app in B. rewrite app_length in F. 
  replace (lenN (opcode i :: (flat_map (le_bytes 2) (refs i) ++ args i) ++ code p) - lenN (code p)) with (lenN (instr_bytes i))
    by (unfold instr_bytes; rewrite !lenN_cons, !lenN_app; lia).
  rewrite IH; auto; [|unfold instr_bytes; rewrite lenN_cons; lia|lia]. cbn [option_map]. do 3 f_equal. apply N.mod_small. lia.
Qed.

Lemma cut_text s r : text s -> cut_string (s ++ 0 :: r) = Ok (s, r).
Proof.
  induction s as [|b s IH]; intros T; [reflexivity|]. inversion T as [|? ? B T']; subst. cbn [app cut_string]. destruct (N.eqb_spec b 0); [lia|].
  rewrite IH by exact T'. reflexivity.
Qed.
Lemma strings_table r : forall names, Forall text names -> strings (length names) (table names ++ r) = Ok names.
Proof.
  induction names as [|s names IH]; intros T; [reflexivity|]. inversion T as [|? ? T1 T2]; subst. cbn [length strings]. unfold table. cbn [flat_map].
  rewrite <- !app_assoc. cbn [app]. rewrite cut_text by exact T1. cbn [bindR fst snd]. fold (table names). rewrite IH by exact T2. reflexivity.
Qed.

Lemma le_val_le4 v : v < 2 ^ 32 -> le_val (le4 v) = v.
Proof. intros B. unfold le4. cbn [le_val]. lia. Qed.
Lemma le_val_le2 v : v < 2 ^ 16 -> le_val (le2 v) = v.
Proof. intros B. unfold le2. cbn [le_val]. lia. Qed.
Lemma toS4_small v : v < 2 ^ 31 -> toS 4 v = Z.of_N v.
Proof. intros B. unfold toS. destruct (N.ltb_spec v (2 ^ (8 * 4 - 1))); [reflexivity|cbn in *; lia]. Qed.

Section Written.
  Variables (rtl : bool) (names : list (list N)) (p : list instr).
  Hypothesis (T : Forall text names) (C : lenN names <= 65535) (B : 16 + table_bytes names < 2 ^ 31) (L : lenN (code p) <= 2 ^ 32).
  Hypothesis (W : Forall (well_formed names) p) (R : Forall (inspector_reads rtl) p).

  Lemma header_at q n : q + n <= 16 -> sub (image names (code p)) q n = sub (header names) q n.
  Proof.
    intros P. pose proof (slice_header names (code p) T C ltac:(lia) UIl q n P) as S. rewrite slice_eq in S.
    destruct (q + n <=? lenN (image names (code p))); [now inversion S|discriminate].
  Qed.
  Lemma inspect_image : inspect rtl (image names (code p)) =
    Ok (Inspection 1 (Z.of_N (lenN names)) 16 (Z.of_N (16 + table_bytes names)) names (lines_of 0 p)).
  Proof.
    unfold inspect. rewrite image_len by (auto; lia). destruct (N.ltb_spec (16 + table_bytes names + lenN (code p)) 16); [lia|].
    unfold magic_ok. rewrite slice_header by (auto; lia). cbn [bindR]. change (sub (header names) 0 5) with [67; 78; 68; 73; 76].
    destruct list_eq_dec; [|congruence]. cbn [negb]. rewrite !header_at by (cbn; lia).
    change (sub (header names) 5 (N.of_nat 1)) with [1]. change (sub (header names) 6 (N.of_nat 2)) with (le2 (lenN names)).
    change (sub (header names) 8 (N.of_nat 4)) with (le4 16). change (sub (header names) 12 (N.of_nat 4)) with (le4 (16 + table_bytes names)).
    rewrite le_val_le2 by lia. rewrite !le_val_le4 by lia. rewrite image_table, image_code by (auto; lia).
    rewrite (listing_ok rtl names p 0) by (auto; lia). rewrite !toS4_small by lia.
    assert (E : (if 16 <? 16 + table_bytes names + lenN (code p) then strings (N.to_nat (lenN names)) (table names ++ code p) else Ok []) = Ok names).
    { unfold lenN at 2. rewrite Nat2N.id. destruct (N.ltb_spec 16 (16 + table_bytes names + lenN (code p))) as [_|H1].
      - now apply strings_table.
      - destruct names as [|n l]; [reflexivity|]. exfalso. cbn [table_bytes fold_right] in H1. lia. }
    rewrite E. reflexivity.
  Qed.
End Written.

(** ** All files *)
Lemma read_tail n l : exists m, snd (read_n n l) = skipn m l.
Proof. unfold read_n. destruct (lenN l <? N.of_nat n); [exists O; reflexivity|exists n; reflexivity]. Qed.
Definition tail (l' l : list N) : Prop := exists m, l' = skipn m l.
Lemma tail_refl l : tail l l. Proof. now exists O. Qed.
Lemma skip_skip {A} n m (l : list A) : skipn n (skipn m l) = skipn (m + n) l.
Proof. revert l; induction m as [|m IH]; intros l; [reflexivity|]. destruct l; cbn [skipn Nat.add]; [apply skipn_nil|apply IH]. Qed.
Lemma tail_trans a b c : tail a b -> tail b c -> tail a c.
Proof. intros [n ->] [m ->]. exists (m + n)%nat. apply skip_skip. Qed.
Lemma tail_read n l v l' : read_n n l = (v, l') -> tail l' l.
Proof. intros E. destruct (read_tail n l) as [m M]. rewrite E in M. now exists m. Qed.
Lemma tail_typed t l v l' : typed t l = (v, l') -> tail l' l.
Proof.
  unfold typed, read_u8, read_u16, read_u32, read_u64. intros E.
  destruct t as [|t]; [inversion E; apply tail_refl|].
  do 5 try destruct t as [t|t|]; try (inversion E; subst; apply tail_refl);
    match type of E with (let (_, _) := ?x in _) = _ => destruct x eqn:X end; inversion E; subst; eapply tail_read; exact X.
Qed.
Lemma tail_enum t n : forall l v l', enum_values n t l = (v, l') -> tail l' l.
Proof.
  induction n as [|n IH]; intros l v l' E; cbn [enum_values] in E; [inversion E; apply tail_refl|].
  destruct (typed t l) as [z l1] eqn:X. destruct (enum_values n t l1) as [y l2] eqn:Y. inversion E; subst. eapply tail_trans; [eapply IH; exact Y|eapply tail_typed; exact X].
Qed.
Lemma tail_coefficients n : forall l v l', coefficients n l = (v, l') -> tail l' l.
Proof.
  induction n as [|n IH]; intros l v l' E; cbn [coefficients] in E; [inversion E; apply tail_refl|].
  destruct (read_u64 l) as [z l1] eqn:X. destruct (coefficients n l1) as [y l2] eqn:Y. inversion E; subst. eapply tail_trans; [eapply IH; exact Y|eapply tail_read; exact X].
Qed.
Lemma tail_points n : forall l v l', points n l = (v, l') -> tail l' l.
Proof.
  induction n as [|n IH]; intros l v l' E; cbn [points] in E; [inversion E; apply tail_refl|].
  destruct (read_u64 l) as [z l1] eqn:X. destruct (read_u64 l1) as [z' l2] eqn:X'. destruct (points n l2) as [y l3] eqn:Y. inversion E; subst.
  eapply tail_trans; [eapply IH; exact Y|]. eapply tail_trans; eapply tail_read; eassumption.
Qed.
Lemma tail_read2 rtl n l a b l' : read2 rtl (read_n n) l = (a, b, l') -> tail l' l.
Proof.
  unfold read2. destruct (read_n n l) as [x l1] eqn:X. destruct (read_n n l1) as [y l2] eqn:Y. intros E. 
  assert (l' = l2) as -> by (destruct rtl; inversion E; auto). eapply tail_trans; eapply tail_read; eassumption.
Qed.
Lemma tail_read4 rtl n m l a b c d l' : read4 rtl (read_n n) (read_n m) l = (a, b, c, d, l') -> tail l' l.
Proof.
  unfold read4. destruct rtl.
  - destruct (read_n m l) as [x l1] eqn:X. destruct (read_n n l1) as [y l2] eqn:Y. destruct (read_n n l2) as [z l3] eqn:Z. destruct (read_n n l3) as [w l4] eqn:V.
    intros E. inversion E; subst. repeat (eapply tail_trans; [eapply tail_read; eassumption|]). apply tail_refl.
  - destruct (read_n n l) as [x l1] eqn:X. destruct (read_n n l1) as [y l2] eqn:Y. destruct (read_n n l2) as [z l3] eqn:Z. destruct (read_n m l3) as [w l4] eqn:V.
    intros E. inversion E; subst. repeat (eapply tail_trans; [eapply tail_read; eassumption|]). apply tail_refl.
Qed.
Ltac tails := repeat match goal with
  | E : (_, _) = (_, _) |- _ => inversion E; subst; clear E
  | E : (let (_, _) := ?x in _) = _ |- _ => destruct x eqn:?
  | E : (match ?x with _ => _ end) = (_, _) |- _ => destruct x eqn:?
  end;
  repeat match goal with
  | |- tail ?a ?a => apply tail_refl
  | |- tail (skipn ?n ?a) _ => apply (tail_trans _ a); [now exists n|]
  | E : read_n _ _ = (_, ?a) |- tail ?a _ => eapply tail_trans; [eapply tail_read; exact E|]
  | E : read2 _ _ _ = (_, ?a) |- tail ?a _ => eapply tail_trans; [eapply tail_read2; exact E|]
  | E : read4 _ _ _ _ = (_, ?a) |- tail ?a _ => eapply tail_trans; [eapply tail_read4; exact E|]
  | E : typed _ _ = (_, ?a) |- tail ?a _ => eapply tail_trans; [eapply tail_typed; exact E|]
  | E : enum_values _ _ _ = (_, ?a) |- tail ?a _ => eapply tail_trans; [eapply tail_enum; exact E|]
  | E : coefficients _ _ = (_, ?a) |- tail ?a _ => eapply tail_trans; [eapply tail_coefficients; exact E|]
  | E : points _ _ = (_, ?a) |- tail ?a _ => eapply tail_trans; [eapply tail_points; exact E|]
  end.
Lemma tail_operands rtl op l v l' : operands rtl op l = (v, l') -> tail l' l.
Proof.
  unfold operands, read_u8, read_u16, read_u32, read_u64. intros E.
  destruct op as [|op]; [inversion E; apply tail_refl|].
  do 7 try destruct op as [op|op|]; try (inversion E; subst; apply tail_refl); try solve [tails].
  tails.
  - change (tail (skipn 16 l0) l). eapply tail_trans; [now exists 16%nat|]. eapply tail_read; eassumption.
  - change (tail (skipn 8 l0) l). eapply tail_trans; [now exists 8%nat|]. eapply tail_read; eassumption.
Qed.

Lemma tail_len a b : tail a b -> lenN a <= lenN b.
Proof. intros [m ->]. unfold lenN. rewrite skipn_length. lia. Qed.
Lemma tail_skip a b : tail a b -> a = skipn (N.to_nat (lenN b - lenN a)) b.
Proof.
  intros [m ->]. unfold lenN. rewrite skipn_length. destruct (Nat.le_gt_cases m (length b)).
  - f_equal. lia.
  - rewrite !skipn_all2; auto; lia.
Qed.

Lemma listing_walk rtl whole : lenN whole <= 2 ^ 32 -> forall fuel off l, l = skipn (N.to_nat off) whole -> off + lenN l = lenN whole -> (length l <= fuel)%nat ->
  exists ls, listing rtl fuel off l = Some ls /\ (l <> [] -> exists x r, ls = x :: r /\ l_offset x = off) /\
    Sorted N.lt (map l_offset ls) /\ Forall (fun x => off <= l_offset x < lenN whole /\ l_op x = nthN whole (l_offset x)) ls.
Proof.
  intros B. induction fuel as [|fuel IH]; intros off l E L F.
  - destruct l; [|cbn in F; lia]. exists []. split; [reflexivity|]. split; [congruence|]. split; constructor.
  - destruct l as [|op l1]; [exists []; split; [reflexivity|]; split; [congruence|]; split; constructor|].
    cbn [listing]. destruct (operands rtl op l1) as [its l2] eqn:O. apply tail_operands in O. pose proof (tail_len _ _ O) as LL. pose proof (tail_skip _ _ O) as TS.
    rewrite lenN_cons in L |- *. cbn [length] in F.
    destruct (IH (off + (lenN l1 + 1 - lenN l2)) l2) as (ls & E1 & E2 & E3 & E4).
    + assert (E5 : l1 = skipn 1 (skipn (N.to_nat off) whole)) by (now rewrite <- E). rewrite TS at 1. replace (lenN l1 + 1 - lenN l2) with (lenN l1 - lenN l2 + 1) by lia.
      generalize (lenN l1 - lenN l2). intros d. rewrite E5, !skip_skip. f_equal. lia.
    + lia.
    + unfold lenN in *. lia.
    + rewrite E1. cbn [option_map]. eexists. split; [reflexivity|]. rewrite N.mod_small by lia. split; [intros _; eauto|]. split.
      * cbn [map l_offset]. constructor; [exact E3|]. destruct ls as [|x r]; constructor. cbn [map]. inversion E4; subst. lia.
      * constructor; cbn [l_offset l_op].
        -- split; [lia|]. replace off with (off + 0) by lia. rewrite <- nthN_skipn, <- E. reflexivity.
        -- eapply Forall_impl; [|exact E4]. cbn. intros x [X1 X2]. split; [lia|exact X2].
Qed.

Lemma cut_iff l : match cut_string l with Ok x => count_occ N.eq_dec l 0 = S (count_occ N.eq_dec (snd x) 0) | Ub u => u = UIl /\ count_occ N.eq_dec l 0 = O end.
Proof.
  induction l as [|b l IH]; [cbn; auto|]. cbn [cut_string count_occ]. destruct (N.eq_dec b 0) as [->|Hb].
  - reflexivity.
  - destruct (N.eqb_spec b 0); [contradiction|]. destruct (cut_string l) as [x|u]; cbn [bindR snd]; exact IH.
Qed.
Lemma strings_iff n : forall l, match strings n l with Ok r => length r = n /\ le n (count_occ N.eq_dec l 0) | Ub u => u = UIl /\ lt (count_occ N.eq_dec l 0) n end.
Proof.
  induction n as [|n IH]; intros l; cbn [strings]; [cbn; lia|]. pose proof (cut_iff l) as C. destruct (cut_string l) as [x|u]; cbn [bindR].
  - specialize (IH (snd x)). destruct (strings n (snd x)) as [r|u]; cbn [bindR length]; destruct IH; split; auto; lia.
  - destruct C. split; auto; lia.
Qed.

Lemma sub_firstn (l : list N) n : sub l 0 n = firstn (N.to_nat n) l.
Proof. reflexivity. Qed.
Lemma inspect_cases rtl data : lenN data <= 2 ^ 32 ->
  (~ is_image data -> inspect rtl data = Ok NoImage) /\
  (is_image data -> ~ table_ends data -> inspect rtl data = Ub UIl) /\
  (is_image data -> table_ends data -> exists strs ls,
    inspect rtl data = Ok (Inspection (Z.of_N (nthN data 5)) (Z.of_N (le_val (sub data 6 2))) (toS 4 (le_val (sub data 8 4))) (toS 4 (le_val (sub data 12 4))) strs ls) /\
    let whole := skipn (N.to_nat (le_val (sub data 12 4))) data in
    (whole <> [] -> exists x r, ls = x :: r /\ l_offset x = 0) /\ Sorted N.lt (map l_offset ls) /\
    Forall (fun x => l_offset x < lenN whole /\ l_op x = nthN whole (l_offset x)) ls).
Proof.
  intros B. unfold inspect, is_image. destruct (N.ltb_spec (lenN data) 16) as [H|H].
  { split; [reflexivity|]. split; intros [I _]; lia. }
  unfold magic_ok. rewrite slice_eq. destruct (N.leb_spec (0 + 5) (lenN data)) as [_|X]; [|lia]. cbn [bindR]. rewrite sub_firstn. change (N.to_nat 5) with 5%nat.
  destruct (list_eq_dec N.eq_dec (firstn 5 data) [67; 78; 68; 73; 76]) as [M|M]; cbn [negb].
  2:{ split; [reflexivity|]. split; intros [_ I]; contradiction. }
  split; [intros X; exfalso; apply X; auto|].
  change (N.of_nat 2) with 2. change (N.of_nat 4) with 4.
  assert (E5 : le_val (sub data 5 (N.of_nat 1)) = nthN data 5).
  { change (N.of_nat 1) with (0 + 1). rewrite sub_cons, sub_0 by lia. cbn [le_val]. lia. }
  rewrite E5. set (cnt := le_val (sub data 6 2)). set (so := le_val (sub data 8 4)). set (bo := le_val (sub data 12 4)).
  assert (LW : lenN (skipn (N.to_nat bo) data) <= 2 ^ 32) by (rewrite lenN_skipn; lia).
  destruct (listing_walk rtl (skipn (N.to_nat bo) data) LW (length (skipn (N.to_nat bo) data)) 0 (skipn (N.to_nat bo) data)) as (ls & E1 & E2 & E3 & E4); auto.
  rewrite E1. unfold table_ends. fold cnt so. split; intros _ TE.
  - destruct (N.ltb_spec so (lenN data)) as [LT|GE]; [|exfalso; apply TE; lia].
    pose proof (strings_iff (N.to_nat cnt) (skipn (N.to_nat so) data)) as SI. destruct (strings (N.to_nat cnt) (skipn (N.to_nat so) data)) as [r|u]; cbn [bindR].
    + exfalso. apply TE. intros _. lia.
    + now destruct SI as [-> _].
  - assert (exists strs, (if so <? lenN data then strings (N.to_nat cnt) (skipn (N.to_nat so) data) else Ok []) = Ok strs) as (strs & ES).
    { destruct (N.ltb_spec so (lenN data)) as [LT|GE]; [|eauto]. specialize (TE LT).
      pose proof (strings_iff (N.to_nat cnt) (skipn (N.to_nat so) data)) as SI. destruct (strings (N.to_nat cnt) (skipn (N.to_nat so) data)) as [r|u]; [eauto|]. lia. }
    exists strs, ls. rewrite ES. cbn [bindR]. split; [reflexivity|]. split; [exact E2|]. split; [exact E3|]. eapply Forall_impl; [|exact E4]. cbn. tauto.
Qed.
