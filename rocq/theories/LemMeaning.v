(** Running compiled packets of decorated fields and conditionals. *)
From Coq Require Import ZifyBool ZifyNat ZifyN.
From Verif Require Import Base SpecBytes LemBase ModelWord LemWord ModelFloat ModelTrans ModelVM SpecVM LemAct LemInstr LemField LemCheck LemStr LemExpr
  ModelText SpecText ModelParse ModelSchema ModelImage SpecImage SpecParse LemParse SpecNames LemNames SpecPacket SpecFlow SpecMessage LemFlow LemImage LemPacket LemSend LemMessage LemAccept LemLayout SpecSource LemSource LemCompile.
Ltac Zify.zify_post_hook ::= Z.div_mod_to_equations.

(** ** Numbers and patterns *)
Lemma type_width ty n : type_bytes ty = Some n -> width ty = n /\ 1 <= n.
Proof. intros T. apply int_types in T. cbn [In] in T. decompose [or] T; try contradiction; match goal with E : _ = _ |- _ => injection E as <- <- end; (split; [reflexivity|lia]). Qed.
Lemma pattern_lt ty z : 1 <= width ty -> pattern ty z < 2 ^ (8 * width ty).
Proof.
  intros L. unfold pattern. pose proof (Z.mod_pos_bound z (2 ^ (8 * Z.of_N (width ty))) ltac:(apply Z.pow_pos_nonneg; lia)) as B.
  rewrite <- (N2Z.id (2 ^ (8 * width ty))), N2Z.inj_pow, N2Z.inj_mul. change (Z.of_N 8) with 8%Z. change (Z.of_N 2) with 2%Z. lia.
Qed.
Lemma pattern_number ty n z : type_bytes ty = Some n -> in_type ty z -> number (width ty) (type_signed ty) (pattern ty z) = z.
Proof.
  intros T. unfold in_type, fits. rewrite T. destruct (type_width _ _ T) as (W & N1). unfold number, pattern. rewrite W.
  assert (EP : (2 ^ (8 * Z.of_N n) = 2 * 2 ^ (8 * Z.of_N n - 1))%Z) by (rewrite <- Z.pow_succ_r by lia; f_equal; lia).
  assert (EH : Z.of_N (2 ^ (8 * n - 1)) = (2 ^ (8 * Z.of_N n - 1))%Z) by (rewrite N2Z.inj_pow, N2Z.inj_sub, N2Z.inj_mul by lia; reflexivity).
  assert (HP : (0 < 2 ^ (8 * Z.of_N n - 1))%Z) by (apply Z.pow_pos_nonneg; lia).
  rewrite EP. set (hf := (2 ^ (8 * Z.of_N n - 1))%Z) in *. clearbody hf. set (hn := 2 ^ (8 * n - 1)) in *. clearbody hn. clear T W N1 EP.
  destruct (type_signed ty); cbn [andb]; intros F.
  - destruct (Z.leb_spec 0 z).
    + rewrite Z.mod_small by lia. destruct (N.leb_spec hn (Z.to_N z)); lia.
    + replace (z mod (2 * hf))%Z with (z + 2 * hf)%Z by (apply (Z.mod_unique _ _ (-1)); lia). destruct (N.leb_spec hn (Z.to_N (z + 2 * hf))); lia.
  - rewrite Z.mod_small by lia. lia.
Qed.
Lemma number_pattern ty n v : type_bytes ty = Some n -> v < 2 ^ (8 * n) -> pattern ty (number (width ty) (type_signed ty) v) = v.
Proof.
  intros T L. destruct (type_width _ _ T) as (W & P1). unfold pattern, number. rewrite W.
  assert (PP : (0 < 2 ^ (8 * Z.of_N n))%Z) by (apply Z.pow_pos_nonneg; lia).
  assert (LZ : (0 <= Z.of_N v < 2 ^ (8 * Z.of_N n))%Z).
  { split; [lia|]. apply N2Z.inj_lt in L. rewrite N2Z.inj_pow, N2Z.inj_mul in L. exact L. }
  destruct (type_signed ty && _).
  - replace (Z.of_N v - 2 ^ (8 * Z.of_N n))%Z with (Z.of_N v + (-1) * 2 ^ (8 * Z.of_N n))%Z by ring. rewrite Z_mod_plus_full, Z.mod_small by exact LZ. apply N2Z.id.
  - rewrite Z.mod_small by exact LZ. apply N2Z.id.
Qed.
Lemma member_eq ty n v l : type_bytes ty = Some n -> v < 2 ^ (8 * n) -> Forall (in_type ty) l ->
  existsb (N.eqb v) (map (pattern ty) l) = existsb (Z.eqb (number (width ty) (type_signed ty) v)) l.
Proof.
  intros T L F. induction F as [|z l I F IH]; [reflexivity|]. cbn [map existsb]. f_equal; [|exact IH].
  destruct (N.eqb_spec v (pattern ty z)) as [->|NE]; symmetry; [apply Z.eqb_eq|apply Z.eqb_neq].
  - eapply pattern_number; eauto.
  - intros E. apply NE. rewrite <- E. symmetry. eapply number_pattern; eauto.
Qed.

(** ** The code of a switch *)
Lemma table_code_len cs d : lenN (table_code cs d) = table_size cs.
Proof.
  unfold table_size, table_code. destruct (dense cs) as [(mn & mx)|].
  - rewrite !lenN_app, !le8_bytes, le4_bytes, !lenN_bytes_of, (flat_len _ 4) by (intros x; rewrite le4_bytes, lenN_bytes_of; reflexivity).
    unfold up_to, lenN. rewrite map_length, seq_length. lia.
  - rewrite !lenN_app, le2_bytes, le4_bytes, !lenN_bytes_of, (flat_len _ 12) by (intros x; rewrite le8_bytes, le4_bytes, lenN_app, !lenN_bytes_of; reflexivity). lia.
Qed.
Lemma switch_is_code key l : lenN (cases_from 0 l) < 2 ^ 16 -> Forall (fun c => fst c < 2 ^ 64) (cases_from 0 l) -> lenN (switch_bytes key l) < 2 ^ 31 ->
  switch_code key l (switch_bytes key l).
Proof.
  intros C16 V64 LB. unfold switch_bytes in *. unfold switch_table in *.
  assert (LT : total l + table_size (wrapped l) < 2 ^ 31).
  { rewrite !lenN_app, table_code_len, bodies_len in LB. lia. }
  assert (EW : wrapped l = cases_from 0 l).
  { unfold wrapped. rewrite <- (map_id (cases_from 0 l)) at 2. apply map_ext_in. intros (v & o) I. pose proof (proj1 (Forall_forall _ _) (cases_bound l 0) _ I) as CB. cbn [fst snd] in *.
    rewrite N.mod_small; [reflexivity|]. change (2 ^ 32) with 4294967296. change (2 ^ 31) with 2147483648 in LT. lia. }
  assert (ED : default_used l (table_size (cases_from 0 l)) = default_offset l (table_size (cases_from 0 l))).
  { rewrite EW in LT. unfold default_used, default_kept, default_offset, no_default. change (2 ^ 32) with 4294967296. change (2 ^ 31) with 2147483648 in LT. destruct (default_from 0 l) as [d|] eqn:DF.
    - apply default_bound in DF. rewrite N.mod_small by lia. destruct (N.eqb_spec d 4294967295); [lia|reflexivity].
    - change (4294967295 =? 4294967295) with true. cbv iota. apply N.mod_small. lia. }
  unfold switch_op. rewrite EW, ED in *. destruct (dense (cases_from 0 l)) as [(mn & mx)|] eqn:D; cbn [some].
  - destruct (dense_spec _ _ _ D V64) as (D1 & D2 & D3).
    assert (S2 : table_size (cases_from 0 l) = 20 + 4 * (N.of_nat (N.to_nat (mx - mn)) + 1)) by (unfold table_size; rewrite D; lia).
    rewrite (table_dense _ _ _ _ D D2), S2. apply code_dense; [|lia]. eapply Forall_impl; [|exact D1]. cbn. intros. lia.
  - assert (S2 : table_size (cases_from 0 l) = 6 + 12 * lenN (cases_from 0 l)) by (unfold table_size; rewrite D; lia).
    rewrite (table_list _ _ D), S2. apply code_list; auto.
Qed.
Lemma labels_cases id cs : forall a, map fst (cases_from a (real id (cases_sym cs))) = map (pattern 0x13) (labels cs).
Proof.
  induction cs as [|l b more IH]; intros a; [reflexivity|]. change (real id (cases_sym (Case l b more))) with ((option_map (pattern 19) l, syms_code id (prog_sym b)) :: real id (cases_sym more)). cbn [cases_from labels].
  rewrite map_app, IH. destruct l; reflexivity.
Qed.

Lemma meaning_switch {H} (host : H -> request -> H * reply) id m n cs r x h : meaning host id m (Switch n cs r) x h =
  let (h1, rp) := host h (ask (id n) 0x06 (cvar 8 0) HQuery) in
  if r_ok rp then andthen (selected host id m cs (answer 8 0 rp) (Goes x h1) x h1) (meaning host id m r) else Stops ECallback x h1.
Proof. reflexivity. Qed.
Lemma selected_case {H} (host : H -> request -> H * reply) id m l b more v d x h : selected host id m (Case l b more) v d x h =
  match l with
  | Some z => if v =? pattern 0x13 z then meaning host id m b x h else selected host id m more v d x h
  | None => selected host id m more v (meaning host id m b x h) x h
  end.
Proof. destruct l; reflexivity. Qed.

Section Meaning.
  Context {H : Type} (host : H -> request -> H * reply) (lm : libm) (bc : list N) (WB : wf_bytes bc).

  (** From one state to another, whatever happens there, in no more instructions than there are bytes between them *)
  Definition reach (s : st) (h : H) (s' : st) (h' : H) : Prop :=
    exists n t, N.of_nat n + ip s <= ip s' /\ forall f, run host lm bc (n + f) s h = let '(o, h2, t2) := run host lm bc f s' h' in (o, h2, t ++ t2).
  Lemma reach_none s h : reach s h s h.
  Proof. exists 0%nat, []. split; [lia|]. intros f. cbn [Nat.add app]. now destruct run as [[? ?] ?]. Qed.
  Lemma reach_then s h s1 h1 s2 h2 : reach s h s1 h1 -> reach s1 h1 s2 h2 -> reach s h s2 h2.
  Proof.
    intros (n & t & LA & A) (m & u & LB & B). exists (n + m)%nat, (t ++ u). split; [lia|]. intros f. rewrite <- Nat.add_assoc, A, B. destruct run as [[? ?] ?]. now rewrite app_assoc.
  Qed.
  Lemma reach_one s h s1 h1 t : ip s < lenN bc /\ ip s < ip s1 -> interp host (step lm bc s) h = (SCont s1, h1, t) -> reach s h s1 h1.
  Proof.
    intros (L & L1) E. exists 1%nat, t. split; [lia|]. intros f. cbn [Nat.add run]. destruct (N.leb_spec (lenN bc) (ip s)); [lia|]. now rewrite E.
  Qed.

  Context (m : mode).
  (** The machine at a place, at an instruction, with values on the stack *)
  Definition pt (x : place) (q : N) (k : list N) : st := mkst m (passed x ++ ahead x) q (lenN (passed x)) 0 (order x) TNone false [] k.
  (** The run ends there, whatever the byte order *)
  Definition stands (x : place) (s : st) : Prop := buf s = passed x ++ ahead x /\ position s = 8 * lenN (passed x).
  Definition halts (s : st) (h : H) (e : err) (x : place) (h' : H) : Prop :=
    exists n t s', N.of_nat n + ip s <= lenN bc /\ stands x s' /\ forall f, run host lm bc (n + f) s h = (Done e s', h', t).
  Lemma stands_pt x y q k : passed y = passed x -> ahead y = ahead x -> stands x (pt y q k).
  Proof. intros E1 E2. unfold stands, pt, position. cbn [buf cur boff]. rewrite E1, E2. split; [reflexivity|lia]. Qed.
  Definition crashes (s : st) (h : H) : Prop := exists n t u h', N.of_nat n + ip s <= lenN bc /\ (u = UShift \/ u = UOverflow) /\ forall f, run host lm bc (n + f) s h = (Crash u, h', t).
  Lemma halts_then s h s1 h1 e x h' : reach s h s1 h1 -> halts s1 h1 e x h' -> halts s h e x h'.
  Proof. intros (n & t & LA & A) (n' & t' & s' & LB & P & B). exists (n + n')%nat, (t ++ t'), s'. split; [lia|]. split; [exact P|]. intros f. now rewrite <- Nat.add_assoc, A, B. Qed.
  Lemma crashes_then s h s1 h1 : reach s h s1 h1 -> crashes s1 h1 -> crashes s h.
  Proof. intros (n & t & LA & A) (n' & t' & u & h' & LB & K & B). exists (n + n')%nat, (t ++ t'), u, h'. split; [lia|]. split; [exact K|]. intros f. now rewrite <- Nat.add_assoc, A, B. Qed.
  Lemma halts_at s h e x s' h1 t : ip s < lenN bc -> stands x s' -> interp host (step lm bc s) h = (SHalt e s', h1, t) -> halts s h e x h1.
  Proof. intros L P E. exists 1%nat, t, s'. split; [lia|]. split; [exact P|]. intros f. cbn [Nat.add run]. destruct (N.leb_spec (lenN bc) (ip s)); [lia|]. now rewrite E. Qed.
  Lemma halts_one s h e x q k h1 t : ip s < lenN bc -> interp host (step lm bc s) h = (SHalt e (pt x q k), h1, t) -> halts s h e x h1.
  Proof. intros L E. eapply halts_at; [exact L| |exact E]. now apply stands_pt. Qed.
  Lemma bin_undefined o a b u : bin_eval lm (ib o) a b = AU u -> u = UShift \/ u = UOverflow.
  Proof. destruct o; cbn [ib bin_eval]; try discriminate; try (destruct (b =? 0); discriminate); destruct (64 <=? b); try discriminate; intros E; injection E as <-; auto. Qed.
  Lemma un_undefined o a u : un_eval lm (iu o) a = AU u -> u = UShift \/ u = UOverflow.
  Proof. destruct o; cbn [iu un_eval]; try discriminate. destruct (a =? 2 ^ 63); try discriminate. intros E; injection E as <-; auto. Qed.
  Lemma crashes_one s h u h1 t : ip s < lenN bc -> u = UShift \/ u = UOverflow -> interp host (step lm bc s) h = (SUndef u, h1, t) -> crashes s h.
  Proof. intros L K E. exists 1%nat, t, u, h1. split; [lia|]. split; [exact K|]. intros f. cbn [Nat.add run]. destruct (N.leb_spec (lenN bc) (ip s)); [lia|]. now rewrite E. Qed.

  (** The program from a state does what [r] says, going on at [q] *)
  Definition yields (s : st) (h : H) (r : ending) (q : N) : Prop :=
    match r with
    | Goes x h' => reach s h (pt x q []) h'
    | Stops e x h' => halts s h e x h'
    | Breaks => crashes s h
    end.
  Lemma yields_then s h s1 h1 r q : reach s h s1 h1 -> yields s1 h1 r q -> yields s h r q.
  Proof. intros R. destruct r; cbn [yields]; intros Y; [eapply reach_then|eapply halts_then|eapply crashes_then]; eauto. Qed.
  Lemma yields_and s h r q q' k : yields s h r q -> (forall x h1, r = Goes x h1 -> yields (pt x q []) h1 (k x h1) q') -> yields s h (andthen r k) q'.
  Proof. intros Y K. destruct r as [x h1| |]; cbn [andthen]; auto. eapply yields_then; [exact Y|]. now apply K. Qed.

  (** ** Conditions *)
  Context (id : list N -> N).
  Lemma step_lit s h v : nthN bc (ip s) = 0x61 -> sub bc (ip s + 1) 8 = bytes_of LE 8 v -> ip s + 9 <= lenN bc ->
    lenN (stk s) < 8 -> interp host (step lm bc s) h = (SCont (set_ip (set_stk s (v mod 2 ^ 64 :: stk s)) (ip s + 9)), h, []).
  Proof.
    intros HO HS HI HK. enter_op HO. enter_args. rewrite fetch_at by (auto; cbn [wbytes]; lia). cbn [lift wbytes].
    rewrite HS. rewrite val_bytes. rewrite push_ok by (cbn [stk set_ip]; auto). cbn [interp].
    replace (ip s + 1 + 8) with (ip s + 9) by lia. reflexivity.
  Qed.
  Lemma step_field s h k h1 r : nthN bc (ip s) = 0x60 -> sub bc (ip s + 1) 2 = bytes_of LE 2 k -> k < 2 ^ 16 -> ip s + 3 <= lenN bc ->
    lenN (stk s) < 8 -> host h (ask k 0x60 (cvar 8 0) HQuery) = (h1, r) ->
    interp host (step lm bc s) h = (if r_ok r then SCont (set_ip (set_stk s (answer 8 0 r :: stk s)) (ip s + 3)) else SHalt ECallback (set_ip s (ip s + 3)), h1,
      [(ask k 0x60 (cvar 8 0) HQuery, r)]).
  Proof.
    intros HO HS HK16 HI HK HH.
    enter_op HO. unfold load_ctx. enter_args. rewrite fetch_at by (auto; cbn [wbytes]; lia). cbn [lift wbytes].
    rewrite HS. rewrite val_bytes. change (256 ^ N.of_nat 2) with (2 ^ 16). rewrite N.mod_small by auto. replace (ip s + 1 + 2) with (ip s + 3) by lia.
    change (PInt W8 0) with (cvar 8 0). destruct (r_ok r) eqn:HR.
    - erewrite interp_call; [|exact HH|exact HR]. rewrite answer_got. cbn [wbytes].
      rewrite push_ok by (cbn [stk set_ip]; auto). reflexivity.
    - erewrite interp_call_no; [|exact HH|exact HR]. reflexivity.
  Qed.
  Lemma answer8 r : answer 8 0 r < 2 ^ 64.
  Proof. unfold answer. destruct (r_val r); [apply N.mod_lt; discriminate|reflexivity]. Qed.
  Lemma at_once_pos c : integral c -> 1 <= at_once c.
  Proof. induction c; cbn [integral at_once]; intros U; try contradiction; try lia; auto. Qed.
  Lemma condition_yields c x : integral c -> Forall (fun n => id n < 2 ^ 16) (names c) -> forall q k h,
    placed bc q (syms_code id (cond_sym c)) -> lenN k + at_once c <= 8 ->
    match condition host id c h with
    | (h', CVal v) => reach (pt x q k) h (pt x (q + syms_len (cond_sym c)) (v :: k)) h' /\ v < 2 ^ 64
    | (h', CStop e) => halts (pt x q k) h e x h'
    | (_, CBreak) => crashes (pt x q k) h
    end.
  Proof.
    induction c as [v| | |n|o a IHa b IHb|o a IHa| |]; cbn [integral names]; intros U F q k h P L; try contradiction.
    - cbn [condition cond_sym at_once] in *. pose proof (placed_le _ _ _ P) as PL. rewrite syms_len_ok in PL.
      change (syms_len [(97, [], bytes_of LE 8 (ofZ 8 v))]) with 9 in *.
      assert (EV : ofZ 8 v = pattern 0x13 v) by reflexivity. pose proof (pattern_lt 0x13 v ltac:(change (width 0x13) with 8; lia)) as V64. change (8 * width 19) with 64 in V64.
      set (w := pattern 19 v) in *. clearbody w.
      cbn [syms_code map code flat_map instr_bytes inst ins opcode refs args fst snd app] in P. rewrite EV, app_nil_r in P. apply placed_one in P as (HO & (P & _)).
      change (lenN (bytes_of LE 8 w)) with 8 in P. split; [|exact V64].
      eapply reach_one; [cbn [ip pt]; lia|]. rewrite (step_lit (pt x q k) h w); auto; [|cbn [stk pt]; lia]. rewrite N.mod_small by exact V64. reflexivity.
    - cbn [condition cond_sym at_once] in *. pose proof (placed_le _ _ _ P) as PL. rewrite syms_len_ok in PL. change (syms_len [(96, [n], [])]) with 3 in *.
      cbn [syms_code map code flat_map instr_bytes inst ins opcode refs args fst snd app] in P. rewrite !app_nil_r in P. apply placed_one in P as (HO & (P & _)).
      change (lenN (le_bytes 2 (id n))) with 2 in P. pose proof (Forall_inv F) as K16.
      destruct (host h (ask (id n) 96 (cvar 8 0) HQuery)) as [h1 r] eqn:HH.
      pose proof (step_field (pt x q k) h (id n) h1 r HO P K16 PL ltac:(cbn [stk pt]; lia) HH) as X.
      destruct (r_ok r).
      + split; [|apply answer8]. eapply reach_one; [cbn [ip pt]; lia|exact X].
      + eapply halts_one; [cbn [ip pt]; lia|exact X].
    - destruct U as (UA & UB). apply Forall_app in F as (FA & FB). cbn [condition cond_sym at_once] in *. rewrite !syms_app in P. apply placed_app in P as (PA & P).
      rewrite syms_len_ok in P. apply placed_app in P as (PB & PO). rewrite syms_len_ok in PO. pose proof (placed_le _ _ _ PO) as PL. apply placed_one in PO as (HO & _).
      change (lenN (syms_code id [(ibin_op o, [], [])])) with 1 in PL.
      specialize (IHa UA FA q k h PA ltac:(lia)). destruct (condition host id a h) as [h1 [u|e|]]; [|exact IHa|exact IHa]. destruct IHa as (RA & VA).
      specialize (IHb UB FB (q + syms_len (cond_sym a)) (u :: k) h1 PB ltac:(rewrite lenN_cons; lia)).
      destruct (condition host id b h1) as [h2 [v|e|]]; [|eapply halts_then; eauto|eapply crashes_then; eauto]. destruct IHb as (RB & VB).
      pose proof (reach_then _ _ _ _ _ _ RA RB) as R. clear RA RB.
      pose proof (step_bin host lm bc (pt x (q + syms_len (cond_sym a) + syms_len (cond_sym b)) (v :: u :: k)) h2 o u v k HO ltac:(cbn [ip pt]; lia) eq_refl
        ltac:(pose proof (at_once_pos b UB); lia)) as ST. pose proof (bin_spec lm o u v VA VB) as SP.
      destruct (ibin_val o u v) as [w| |].
      + destruct SP as (SP & VW). rewrite SP in ST. split; [|exact VW]. eapply reach_then; [exact R|]. eapply reach_one; [cbn [ip pt]; split; [lia|]; rewrite <- !(syms_len_ok id), !syms_app, !lenN_app; change (lenN (syms_code id [(ibin_op o, [], [])])) with 1; lia|]. rewrite ST.
        cbn [ip pt]. do 3 f_equal. unfold pt, set_ip, set_stk. cbn [md buf cur boff en tr opt loops stk]. f_equal. rewrite <- !(syms_len_ok id), !syms_app, !lenN_app.
        change (lenN (syms_code id [(ibin_op o, [], [])])) with 1. lia.
      + rewrite SP in ST. eapply halts_then; [exact R|]. eapply halts_one; [cbn [ip pt]; lia|exact ST].
      + destruct SP as (uk & SP). rewrite SP in ST. eapply crashes_then; [exact R|]. eapply crashes_one; [cbn [ip pt]; lia|exact (bin_undefined _ _ _ _ SP)|exact ST].
    - cbn [condition cond_sym at_once] in *. rewrite !syms_app in P. apply placed_app in P as (PA & PO). rewrite syms_len_ok in PO.
      assert (EO : match o with INeg => 0x77 | INot => 0xA3 | ILNot => 0x71 end = iun_op o) by (destruct o; reflexivity). rewrite EO in *.
      pose proof (placed_le _ _ _ PO) as PL. apply placed_one in PO as (HO & _). change (lenN (syms_code id [(iun_op o, [], [])])) with 1 in PL.
      specialize (IHa U F q k h PA ltac:(lia)). destruct (condition host id a h) as [h1 [u|e|]]; [|exact IHa|exact IHa]. destruct IHa as (R & VA).
      pose proof (step_un host lm bc (pt x (q + syms_len (cond_sym a)) (u :: k)) h1 o u k HO ltac:(cbn [ip pt]; lia) eq_refl
        ltac:(pose proof (at_once_pos a U); lia)) as ST. pose proof (un_spec lm o u VA) as SP.
      destruct (iun_val o u) as [w| |].
      + destruct SP as (SP & VW). rewrite SP in ST. split; [|exact VW]. eapply reach_then; [exact R|]. eapply reach_one; [cbn [ip pt]; split; [lia|]; rewrite <- !(syms_len_ok id), !syms_app, !lenN_app; change (lenN (syms_code id [(iun_op o, [], [])])) with 1; lia|]. rewrite ST.
        cbn [ip pt]. do 3 f_equal. unfold pt, set_ip, set_stk. cbn [md buf cur boff en tr opt loops stk]. f_equal. rewrite <- !(syms_len_ok id), !syms_app, !lenN_app.
        change (lenN (syms_code id [(iun_op o, [], [])])) with 1. lia.
      + rewrite SP in ST. eapply halts_then; [exact R|]. eapply halts_one; [cbn [ip pt]; lia|exact ST].
      + destruct SP as (uk & SP). rewrite SP in ST. eapply crashes_then; [exact R|]. eapply crashes_one; [cbn [ip pt]; lia|exact (un_undefined _ _ _ SP)|exact ST].
  Qed.

  (** ** Fields *)
  Definition moved (x : place) (bs : list N) : place := {| order := order x; passed := passed x ++ bs; ahead := skipn (N.to_nat (lenN bs)) (ahead x) |}.
  Lemma align_pt op x q k q' : align op (set_ip (pt x q k) q') = pt x q' k.
  Proof. unfold align. cbn [boff set_ip pt]. change (negb (0 =? 0)) with false. rewrite andb_false_r. reflexivity. Qed.
  Lemma step_pt x q k op : nthN bc q = op -> q < lenN bc -> step lm bc (pt x q k) = exec_op lm bc op (pt x (q + 1) k).
  Proof. intros HO L. rewrite (step_at lm bc (pt x q k) op L HO). cbn [ip pt]. now rewrite align_pt. Qed.
  Lemma moved_put x bs q k : lenN bs <= lenN (ahead x) ->
    mkst m (put (passed x ++ ahead x) (lenN (passed x)) bs) q (lenN (passed x) + lenN bs) 0 (order x) TNone false [] k = pt (moved x bs) q k.
  Proof. intros L. unfold pt, moved. cbn [passed ahead order]. rewrite put_front by auto. rewrite lenN_app, <- app_assoc. reflexivity. Qed.
  Lemma moved_read x n q k : n <= lenN (ahead x) ->
    mkst m (passed x ++ ahead x) q (lenN (passed x) + n) 0 (order x) TNone false [] k = pt (moved x (firstn (N.to_nat n) (ahead x))) q k.
  Proof.
    intros L. assert (E : lenN (firstn (N.to_nat n) (ahead x)) = n) by (unfold lenN in *; rewrite firstn_length; lia).
    unfold pt, moved. cbn [passed ahead order]. rewrite lenN_app, E, <- app_assoc, firstn_skipn. reflexivity.
  Qed.
  Lemma sub_ahead x n : sub (passed x ++ ahead x) (lenN (passed x)) n = firstn (N.to_nat n) (ahead x).
  Proof. rewrite sub_skip. reflexivity. Qed.

  (** What the instruction of a scalar does *)
  Definition scalar_result (x : place) (ty key : N) (q : N) (h : H) : stepped * H :=
    let n := N.to_nat (width ty) in
    if lenN (ahead x) <? width ty then (SHalt EOob (pt x q []), h)
    else match m with
    | Enc => let (h1, r) := host h (value_call key ty 0) in
        let v := answer (width ty) 0 r in
        (if r_ok r then if truth_value ty v then SCont (pt (moved x (bytes_of (order x) n v)) q []) else SHalt EValidation (pt x q []) else SHalt ECallback (pt x q []), h1)
    | Dec => let v := val_of (order x) (firstn n (ahead x)) in
        if truth_value ty v then
          let (h1, r) := host h (value_call key ty v) in
          (if r_ok r then SCont (pt (moved x (firstn n (ahead x))) q []) else SHalt ECallback (pt x q []), h1)
        else (SHalt EValidation (pt x q []), h)
    end.
  Lemma io_plain x q ty w key h : fetch W2 bc q = Ok (key, q + 2) -> wbytes w = width ty -> wf_bytes (passed x ++ ahead x) -> truth_value ty = (fun _ => true) ->
    exists t, interp host (io_scalar bc (pt x q []) ty w w ty (fun v => Ok v) (fun v => Ok v)) h = (scalar_result x ty key (q + 2) h, t).
  Proof.
    intros FK EW WF TV. unfold io_scalar, scalar_result, value_call. cbn [ip pt]. rewrite FK. cbn [lift]. unfold dlen. cbn [buf cur opt md en tr set_ip pt]. rewrite lenN_app, <- EW, cvar_w, TV.
    destruct (N.ltb_spec (lenN (ahead x)) (wbytes w)) as [LT|GE].
    - destruct (N.ltb_spec (lenN (passed x) + lenN (ahead x)) (lenN (passed x) + wbytes w)); [|lia]. eexists. reflexivity.
    - destruct (N.ltb_spec (lenN (passed x) + lenN (ahead x)) (lenN (passed x) + wbytes w)); [lia|]. destruct m eqn:EM.
      + destruct (host h _) as [h1 r] eqn:HH. destruct (r_ok r) eqn:HR.
        * erewrite interp_call; [|exact HH|exact HR]. cbn [lift]. rewrite write_word_eq, nbytes_w, answer_got. cbn [en buf cur set_ip pt]. rewrite lenN_app.
          destruct (N.leb_spec (lenN (passed x) + wbytes w) (lenN (passed x) + lenN (ahead x))); [|lia]. cbn [lift interp].
          eexists. rewrite <- moved_put by (rewrite lenN_bytes_of; lia). rewrite lenN_bytes_of, N2Nat.id. reflexivity.
        * erewrite interp_call_no; [|exact HH|exact HR]. eexists. reflexivity.
      + rewrite read_word_eq by exact WF. rewrite lenN_app, sub_ahead. destruct (N.leb_spec (lenN (passed x) + wbytes w) (lenN (passed x) + lenN (ahead x))); [|lia]. cbn [lift]. cbv zeta. rewrite cvar_w.
        destruct (host h _) as [h1 r] eqn:HH. destruct (r_ok r) eqn:HR.
        * erewrite interp_call; [|exact HH|exact HR]. cbn [interp]. eexists. rewrite <- moved_read by lia. reflexivity.
        * erewrite interp_call_no; [|exact HH|exact HR]. eexists. reflexivity.
  Qed.
  Lemma scalar_step x q ty key h : placed bc q (ty :: le_bytes 2 key) -> 0x10 <= ty <= 0x1A -> key < 2 ^ 16 -> wf_bytes (passed x ++ ahead x) ->
    exists t, interp host (step lm bc (pt x q [])) h = (scalar_result x ty key (q + 3) h, t).
  Proof.
    intros P TY K WF. pose proof (placed_le _ _ _ P) as PL. apply placed_one in P as (HO & P). rewrite lenN_cons in PL. change (lenN (le_bytes 2 key)) with 2 in PL.
    assert (FK : fetch W2 bc (q + 1) = Ok (key, q + 1 + 2)).
    { rewrite fetch_at by (auto; cbn [wbytes]; lia). cbn [wbytes]. rewrite (placed_val2 bc (q + 1) key); auto. }
    rewrite (step_pt x q [] ty HO) by lia. replace (q + 3) with (q + 1 + 2) by lia. unfold exec_op.
    assert (NB : forall y, y <> 0x1A -> truth_value y = (fun _ => true)) by (intros y NE; unfold truth_value; destruct (N.eqb_spec y 26); [contradiction|reflexivity]).
    destruct (width_cases ty TY) as [(w & sg & IT & EW & NE)|[(d & EC & EA & EW & NE)|EB]].
    - assert (EC : classify ty = CInt {| i_w := w; i_signed := sg |}).
      { clear - IT TY. assert (ty = 16 \/ ty = 17 \/ ty = 18 \/ ty = 19 \/ ty = 20 \/ ty = 21 \/ ty = 22 \/ ty = 23 \/ ty = 24 \/ ty = 25 \/ ty = 26) as C by lia.
        repeat (destruct C as [-> | C]; [cbn in IT; try discriminate; injection IT as <- <-; reflexivity|]). subst ty. discriminate. }
      rewrite EC. apply (io_plain x (q + 1) ty w key h FK); auto.
    - rewrite EC. apply (io_plain x (q + 1) ty (f_width d) key h FK); auto.
    - clear HO TY. subst ty. change (classify 26) with CBool. unfold io_bool. cbn [ip pt]. rewrite FK. cbn [lift]. unfold dlen, scalar_result, value_call. cbn [buf cur opt md en tr set_ip pt].
      change (width 26) with 1. rewrite lenN_app. change (cvar 1) with (PInt W1). change (N.to_nat 1) with 1%nat.
      destruct (N.ltb_spec (lenN (ahead x)) 1) as [LT|GE].
      + destruct (N.ltb_spec (lenN (passed x) + lenN (ahead x)) (lenN (passed x) + 1)); [|lia]. eexists. reflexivity.
      + destruct (N.ltb_spec (lenN (passed x) + lenN (ahead x)) (lenN (passed x) + 1)); [lia|]. unfold truth_value. cbn [N.eqb Pos.eqb negb orb]. destruct m eqn:EM.
        * destruct (host h _) as [h1 r] eqn:HH. destruct (r_ok r) eqn:HR.
          -- erewrite interp_call; [|exact HH|exact HR]. cbv zeta. rewrite answer_got. change (wbytes W1) with 1. rewrite N.ltb_antisym. destruct (N.leb_spec (answer 1 0 r) 1) as [LE1|GT1]; cbn [negb].
             ++ change (write_u8 (passed x ++ ahead x)) with (write_word W1 (order x) (passed x ++ ahead x)). rewrite write_word_eq. cbn [wbytes]. rewrite lenN_app.
                destruct (N.leb_spec (lenN (passed x) + 1) (lenN (passed x) + lenN (ahead x))); [|lia]. cbn [lift interp]. eexists.
                rewrite <- moved_put by (rewrite lenN_bytes_of; lia). rewrite lenN_bytes_of. reflexivity.
             ++ eexists. cbn [interp]. reflexivity.
          -- erewrite interp_call_no; [|exact HH|exact HR]. eexists. reflexivity.
        * change (read_u8 (passed x ++ ahead x)) with (read_word W1 (order x) (passed x ++ ahead x)). rewrite read_word_eq by exact WF. cbn [wbytes]. rewrite lenN_app, sub_ahead.
          destruct (N.leb_spec (lenN (passed x) + 1) (lenN (passed x) + lenN (ahead x))); [|lia]. cbn [lift]. change (N.to_nat 1) with 1%nat.
          rewrite N.ltb_antisym. destruct (N.leb_spec (val_of (order x) (firstn 1 (ahead x))) 1) as [LE1|GT1]; cbn [negb].
          -- destruct (host h _) as [h1 r] eqn:HH. destruct (r_ok r) eqn:HR.
             ++ erewrite interp_call; [|exact HH|exact HR]. cbn [interp]. eexists. change 1%nat with (N.to_nat 1). rewrite <- moved_read by lia. reflexivity.
             ++ erewrite interp_call_no; [|exact HH|exact HR]. eexists. reflexivity.
          -- eexists. cbn [interp]. reflexivity.
  Qed.

  Lemma listed_all ty l : forall p, 1 <= width ty -> placed bc p (flat_map (int_bytes ty) l) -> map (listed bc p (width ty)) (seq 0 (length l)) = map (pattern ty) l.
  Proof.
    induction l as [|z l IH]; intros p W P; [reflexivity|]. cbn [flat_map] in P. apply placed_app in P as (PA & PB). unfold int_bytes at 1 in PB. rewrite lenN_bytes_of, N2Nat.id in PB.
    cbn [length seq map]. f_equal.
    - unfold listed. replace (p + N.of_nat 0 * width ty) with p by lia. apply placed_val in PA. rewrite N2Nat.id in PA. rewrite PA. rewrite N.mod_small; [reflexivity|].
      pose proof (pattern_lt ty z W) as L. rewrite N.pow_mul_r in L. exact L.
    - rewrite <- (IH (p + width ty) W PB). rewrite <- seq_shift, map_map. apply map_ext. intros i. unfold listed. do 2 f_equal. lia.
  Qed.
  Lemma last_bytes y pre bs q k : passed y = pre ++ bs -> sub (buf (pt y q k)) (cur (pt y q k) - lenN bs) (lenN bs) = bs /\ lenN bs <= cur (pt y q k) <= lenN (buf (pt y q k)).
  Proof.
    intros E. cbn [buf cur pt]. rewrite E, <- app_assoc, !lenN_app. replace (lenN pre + lenN bs - lenN bs) with (lenN pre) by lia. split; [apply sub_front|lia].
  Qed.
  Lemma val_lt e bs : wf_bytes bs -> val_of e bs < 2 ^ (8 * lenN bs).
  Proof. intros W. rewrite N.pow_mul_r. apply val_of_bound. exact W. Qed.
  Definition in_place (x : place) : Prop := wf_bytes (passed x ++ ahead x).
  Lemma byte_pos_pt y q k : byte_pos (pt y q k) = lenN (passed y).
  Proof. unfold byte_pos, position, pt. cbn [cur boff]. lia. Qed.
  Lemma enum_do ty n l y pre bs h q : type_bytes ty = Some n -> lenN l < 2 ^ 16 -> Forall (in_type ty) l -> in_place y -> passed y = pre ++ bs -> lenN bs = n ->
    placed bc q (0x4B :: ty :: bytes_of LE 2 (lenN l) ++ flat_map (int_bytes ty) l) ->
    if existsb (Z.eqb (number (width ty) (type_signed ty) (val_of (order y) bs))) l
    then reach (pt y q []) h (pt y (q + 4 + lenN l * n) []) h else halts (pt y q []) h EValidation y h.
  Proof.
    intros T LL F WF EP EB P. destruct (type_width _ _ T) as (EW & N1). destruct (last_bytes y pre bs q [] EP) as (LB & LC). rewrite EB in LB, LC.
    assert (WB' : wf_bytes bs) by (unfold in_place, wf_bytes in WF; rewrite EP in WF; apply Forall_app in WF as (WF & _); apply Forall_app in WF; tauto).
    pose proof (val_lt (order y) bs WB') as VL. rewrite EB in VL. rewrite <- (member_eq ty n _ l T VL F).
    apply placed_one in P as (HO & P). apply placed_one in P as (HT & P). replace (q + 1 + 1) with (q + 2) in P by lia. apply placed_app in P as (PC & PL). change (lenN (bytes_of LE 2 (lenN l))) with 2 in PL. replace (q + 2 + 2) with (q + 4) in PL by lia.
    assert (FL : lenN (flat_map (int_bytes ty) l) = lenN l * n).
    { clear - EW. induction l as [|z l IH]; [reflexivity|]. cbn [flat_map]. rewrite lenN_app, lenN_cons, IH. unfold int_bytes. rewrite lenN_bytes_of, N2Nat.id, EW. lia. }
    pose proof (placed_le _ _ _ PL) as LE1. rewrite FL in LE1.
    assert (OC : operand_at bc (pt y q []) 2 2 = lenN l) by (apply placed_val2; auto).
    pose proof (enum_int host lm bc WB (pt y q []) h n HO WF ltac:(cbn [boff pt]; lia)) as X. cbv zeta in X. rewrite OC, byte_pos_pt in X. cbn [ip pt] in X. rewrite HT in X.
    specialize (X T LE1 ltac:(cbn [cur buf pt] in LC |- *; exact LC)). cbn [cur pt en] in X, LB. rewrite LB in X. rewrite <- EW in X at 1. unfold all_listed in X.
    replace (N.to_nat (lenN l)) with (length l) in X by (unfold lenN; lia). rewrite listed_all in X by (auto; lia).
    destruct (existsb _ _).
    - eapply reach_one; [cbn [ip pt]; lia|]. exact X.
    - eapply halts_at; [cbn [ip pt]; lia| |exact X]. unfold stands, position. cbn [buf cur boff set_ip set_boff set_cur pt]. split; [reflexivity|lia].
  Qed.
  Lemma range_do ty n lo hi y pre bs h q : type_bytes ty = Some n -> in_type ty lo -> in_type ty hi -> in_place y -> passed y = pre ++ bs -> lenN bs = n ->
    placed bc q (0x42 :: ty :: int_bytes ty lo ++ int_bytes ty hi) ->
    let z := number (width ty) (type_signed ty) (val_of (order y) bs) in
    if ((lo <=? z) && (z <=? hi))%Z then reach (pt y q []) h (pt y (q + 2 + 2 * n) []) h else halts (pt y q []) h EValidation y h.
  Proof.
    intros T IL IH WF EP EB P z. destruct (type_width _ _ T) as (EW & N1). destruct (last_bytes y pre bs q [] EP) as (LB & LC). rewrite EB in LB, LC.
    apply placed_one in P as (HO & P). apply placed_one in P as (HT & P). replace (q + 1 + 1) with (q + 2) in P by lia. apply placed_app in P as (PA & PB).
    pose proof (placed_le _ _ _ PB) as LE1. unfold int_bytes in LE1, PA, PB. rewrite !lenN_bytes_of, !N2Nat.id in LE1. rewrite lenN_bytes_of, N2Nat.id in PB.
    assert (OP : forall p v, placed bc p (bytes_of LE (N.to_nat (width ty)) (pattern ty v)) -> in_type ty v -> number n (type_signed ty) (val_of LE (sub bc p n)) = v).
    { intros p v PV IV. apply placed_val in PV. rewrite N2Nat.id, EW in PV. rewrite PV. rewrite N.mod_small; [|pose proof (pattern_lt ty v ltac:(lia)) as PL; rewrite N.pow_mul_r, EW in PL; exact PL].
      rewrite <- EW. eapply pattern_number; eauto. }
    pose proof (range_int host lm bc WB (pt y q []) h n HO WF) as X. cbv zeta in X. cbn [ip pt] in X. rewrite HT in X. rewrite LB in X.
    specialize (X T ltac:(lia) LC). unfold operand_at in X. cbn [ip pt] in X. replace (q + 2 + width ty) with (q + 2 + n) in PB by lia. rewrite N.add_assoc in X. rewrite (OP _ lo PA IL), (OP _ hi PB IH) in X. cbn [en pt] in X.
    unfold z. rewrite EW. destruct (_ && _)%Z.
    - eapply reach_one; [cbn [ip pt]; lia|]. exact X.
    - eapply halts_at; [cbn [ip pt]; lia| |exact X]. now apply (stands_pt y y).
  Qed.

  (** What the instruction of a constant does *)
  Definition const_result (x : place) (ty key c : N) (q : N) (h : H) : stepped * H :=
    let n := N.to_nat (width ty) in
    if lenN (ahead x) <? width ty then (SHalt EOob (pt x q []), h)
    else match m with
    | Enc => (SCont (pt (moved x (bytes_of (order x) n c)) q []), h)
    | Dec => let v := val_of (order x) (firstn n (ahead x)) in
        if v =? c then
          let (h1, r) := host h (ask key ty (cvar (width ty) v) HConst) in
          (if r_ok r then SCont (pt (moved x (firstn n (ahead x))) q []) else SHalt ECallback (pt x q []), h1)
        else (SHalt EValidation (pt x q []), h)
    end.
  Lemma const_step x q ty n key c h : type_bytes ty = Some n -> placed bc q (0x40 :: le_bytes 2 key ++ ty :: int_bytes ty c) -> key < 2 ^ 16 -> in_place x ->
    exists t, interp host (step lm bc (pt x q [])) h = (const_result x ty key (pattern ty c) (q + 4 + n) h, t).
  Proof.
    intros T P K WF. destruct (type_width _ _ T) as (EW & N1). apply placed_one in P as (HO & P). apply placed_app in P as (PK & P). change (lenN (le_bytes 2 key)) with 2 in P.
    apply placed_one in P as (HT & P). replace (q + 1 + 2) with (q + 3) in * by lia. replace (q + 3 + 1) with (q + 4) in P by lia.
    pose proof (placed_le _ _ _ P) as LE1. unfold int_bytes in LE1, P. rewrite lenN_bytes_of, N2Nat.id, EW in LE1.
    apply placed_val in P. rewrite N2Nat.id in P. rewrite N.mod_small in P by (pose proof (pattern_lt ty c ltac:(lia)) as PL; rewrite N.pow_mul_r in PL; exact PL). rewrite EW in P.
    unfold const_result. destruct (N.ltb_spec (lenN (ahead x)) (width ty)) as [LT|GE].
    - exists []. destruct (type_int _ _ T) as (w & IT & EW' & _). change (opcode_at bc (pt x q []) = 64) in HO. assert (LI : ip (pt x q []) + 4 <= lenN bc) by (cbn [ip pt]; lia). enter_op HO. unfold const_check. enter_args. rewrite key_eq by (auto; cbn [ip pt]; lia). cbn [lift].
      cbn [ip pt]. rewrite arg1_eq by (auto; lia). cbn [lift]. rewrite HT, IT. replace (q + 3 + 1) with (q + 4) by lia. rewrite fetch_at by (auto; cbn [i_w]; lia). cbn [lift i_w]. rewrite EW'. enter_args.
      rewrite byte_pos_pt. cbn [buf pt]. rewrite lenN_app. destruct (N.ltb_spec (lenN (passed x) + lenN (ahead x)) (lenN (passed x) + n)); [|lia]. cbn [interp]. reflexivity.
    - destruct m eqn:EM.
      + pose proof (const_check_enc host lm bc WB (pt x q []) h n HO ltac:(cbn [boff pt]; lia) EM) as X. cbv zeta in X. cbn [ip pt] in X. rewrite HT, byte_pos_pt in X.
        specialize (X T LE1 ltac:(cbn [buf pt]; rewrite lenN_app; lia)). unfold operand_at in X. cbn [ip pt] in X. rewrite P in X. eexists. rewrite X. cbn [buf md en tr opt loops stk pt].
        rewrite <- moved_put by (rewrite lenN_bytes_of; lia). rewrite lenN_bytes_of, N2Nat.id, EW. reflexivity.
      + pose proof (const_check_dec host lm bc WB (pt x q []) h n HO ltac:(cbn [boff pt]; lia) EM WF) as X. cbv zeta in X. cbn [ip pt] in X. rewrite HT, byte_pos_pt in X.
        specialize (X T LE1 ltac:(cbn [buf pt]; rewrite lenN_app; lia)). unfold operand_at, key_at, operand_at in X. cbn [ip pt] in X. rewrite P in X. cbn [buf en pt] in X. rewrite sub_ahead, <- EW in X.
        rewrite (placed_val2 bc (q + 1) key PK K) in X. destruct X as (X1 & X2). cbv zeta.
        destruct (N.eqb_spec (val_of (order x) (firstn (N.to_nat (width ty)) (ahead x))) (pattern ty c)) as [E|NE].
        * specialize (X2 E). rewrite E. destruct (host h _) as [h1 r] eqn:HH. specialize (X2 h1 r eq_refl). eexists. rewrite X2. rewrite EW. destruct (r_ok r).
          -- rewrite <- moved_read by lia. reflexivity.
          -- reflexivity.
        * specialize (X1 NE). eexists. rewrite X1. rewrite EW. reflexivity.
  Qed.

  Definition with_order (o : endian) (x : place) : place := {| order := o; passed := passed x; ahead := ahead x |}.
  Lemma big_step x q k h : placed bc q [2] -> reach (pt x q k) h (pt (with_order BE x) (q + 1) k) h.
  Proof. intros P. pose proof (placed_le _ _ _ P) as L. change (lenN [2]) with 1 in L. apply placed_one in P as (HO & _). eapply reach_one; [cbn [ip pt]; lia|]. rewrite (step_pt x q k 2 HO) by lia. reflexivity. Qed.
  Lemma little_step x q h : placed bc q [1] -> reach (pt x q []) h (pt (with_order LE x) (q + 1) []) h.
  Proof. intros P. pose proof (placed_le _ _ _ P) as L. change (lenN [1]) with 1 in L. apply placed_one in P as (HO & _). eapply reach_one; [cbn [ip pt]; lia|]. rewrite (step_pt x q [] 1 HO) by lia. reflexivity. Qed.
  Definition pre_sym (f : item) : list sym := if i_big f then [(0x02, [], [])] else [].
  Definition core_sym (f : item) : list sym := match i_const f with Some c => [(0x40, [i_name f], i_type f :: int_bytes (i_type f) c)] | None => [(i_type f, [i_name f], [])] end.
  Definition enum_sym (f : item) : list sym :=
    match i_members f with None => [] | Some l => [(0x4B, [], i_type f :: bytes_of LE 2 (lenN l) ++ flat_map (int_bytes (i_type f)) l)] end.
  Definition range_sym (f : item) : list sym := match i_range f with Some (lo, hi) => [(0x42, [], i_type f :: int_bytes (i_type f) lo ++ int_bytes (i_type f) hi)] | None => [] end.
  Definition post_sym (f : item) : list sym := if i_big f then [(0x01, [], [])] else [].
  Lemma item_parts f : item_good f -> item_sym f = pre_sym f ++ core_sym f ++ enum_sym f ++ range_sym f ++ post_sym f.
  Proof.
    intros (_ & _ & MC & _). unfold item_sym, pre_sym, core_sym, enum_sym, range_sym, post_sym. cbv zeta. destruct (i_const f) as [c|] eqn:EC.
    - destruct (i_members f) as [l|]; [discriminate MC; discriminate|]. reflexivity.
    - cbn [app]. reflexivity.
  Qed.
  Lemma checks_do f y pre bs h q : item_good f -> in_place y -> passed y = pre ++ bs -> lenN bs = width (i_type f) -> placed bc q (syms_code id (enum_sym f ++ range_sym f)) ->
    if admitted f (val_of (order y) bs) then reach (pt y q []) h (pt y (q + syms_len (enum_sym f ++ range_sym f)) []) h else halts (pt y q []) h EValidation y h.
  Proof.
    intros (TY & TB & _ & ML & _ & RG & MM) WF EP EB P. rewrite syms_app in P. apply placed_app in P as (PE & PR). rewrite syms_len_ok in PR.
    assert (SL : forall a b, syms_len (a ++ b) = syms_len a + syms_len b) by (intros a b; rewrite <- !(syms_len_ok id), syms_app, lenN_app; reflexivity). rewrite SL. clear SL.
    unfold admitted. set (z := number _ _ _).
    assert (E1 : if match i_members f with None => true | Some l => existsb (Z.eqb z) l end then reach (pt y q []) h (pt y (q + syms_len (enum_sym f)) []) h else halts (pt y q []) h EValidation y h).
    { unfold enum_sym in *. destruct (i_members f) as [l|].
      - assert (T : type_bytes (i_type f) <> None) by (apply TB; right; right; discriminate). destruct (type_bytes (i_type f)) as [n|] eqn:TN; [|congruence]. destruct (type_width _ _ TN) as (EW & N1).
        rewrite <- (syms_len_ok id). unfold syms_code in *. cbn [map code flat_map instr_bytes inst ins opcode refs args fst snd app] in *. rewrite app_nil_r in *.
        pose proof (enum_do (i_type f) n l y pre bs h q TN ML (MM l eq_refl) WF EP ltac:(congruence) PE) as X. fold z in X.
        replace (q + lenN _) with (q + 4 + lenN l * n); [exact X|]. rewrite !lenN_cons, lenN_app. change (lenN (bytes_of LE 2 (lenN l))) with 2.
        assert (FL : lenN (flat_map (int_bytes (i_type f)) l) = lenN l * n).
        { clear - EW. induction l as [|z l IH]; [reflexivity|]. cbn [flat_map]. rewrite lenN_app, lenN_cons, IH. unfold int_bytes. rewrite lenN_bytes_of, N2Nat.id, EW. lia. }
        lia.
      - cbn [syms_len fold_right]. rewrite N.add_0_r. apply reach_none. }
    assert (E2 : forall q', placed bc q' (syms_code id (range_sym f)) -> if match i_range f with None => true | Some (lo, hi) => ((lo <=? z) && (z <=? hi))%Z end
      then reach (pt y q' []) h (pt y (q' + syms_len (range_sym f)) []) h else halts (pt y q' []) h EValidation y h).
    { clear E1 PE PR. intros q' PR. unfold range_sym in *. destruct (i_range f) as [(lo, hi)|].
      - assert (T : type_bytes (i_type f) <> None) by (apply TB; right; left; discriminate). destruct (type_bytes (i_type f)) as [n|] eqn:TN; [|congruence]. destruct (type_width _ _ TN) as (EW & N1).
        destruct (RG lo hi eq_refl) as (IL & IH).
        rewrite <- (syms_len_ok id). unfold syms_code in *. cbn [map code flat_map instr_bytes inst ins opcode refs args fst snd app] in *. rewrite app_nil_r in *.
        pose proof (range_do (i_type f) n lo hi y pre bs h q' TN IL IH WF EP ltac:(congruence) PR) as X. cbv zeta in X. fold z in X.
        replace (q' + lenN _) with (q' + 2 + 2 * n); [exact X|]. rewrite !lenN_cons, lenN_app. unfold int_bytes. rewrite !lenN_bytes_of. lia.
      - cbn [syms_len fold_right]. rewrite N.add_0_r. apply reach_none. }
    specialize (E2 _ PR). destruct (match i_members f with None => true | Some l => existsb (Z.eqb z) l end); cbn [andb]; [|exact E1].
    rewrite N.add_assoc. destruct (match i_range f with None => true | Some (lo, hi) => ((lo <=? z) && (z <=? hi))%Z end); [eapply reach_then; eauto|eapply halts_then; eauto].
  Qed.
  Lemma halts_as s h e x y h' : passed y = passed x -> ahead y = ahead x -> halts s h e y h' -> halts s h e x h'.
  Proof. intros E1 E2 (n & t & s' & LN & (A & B) & R). exists n, t, s'. split; [exact LN|]. split; [|exact R]. unfold stands. rewrite <- E1, <- E2. auto. Qed.
  Lemma finish_do f x o bs v h q : item_good f -> o = (if i_big f then BE else order x) -> lenN bs = width (i_type f) -> in_place (moved (with_order o x) bs) -> val_of o bs = v ->
    placed bc q (syms_code id (enum_sym f ++ range_sym f ++ post_sym f)) ->
    let behind := {| order := if i_big f then LE else order x; passed := passed x ++ bs; ahead := skipn (N.to_nat (width (i_type f))) (ahead x) |} in
    yields (pt (moved (with_order o x) bs) q []) h (if admitted f v then Goes behind h else Stops EValidation behind h) (q + syms_len (enum_sym f ++ range_sym f ++ post_sym f)).
  Proof.
    intros G EO EB WF EV P behind. rewrite app_assoc in *. rewrite syms_app in P. apply placed_app in P as (PC & PP). rewrite syms_len_ok in PP.
    assert (SL : forall a b, syms_len (a ++ b) = syms_len a + syms_len b) by (intros a b; rewrite <- !(syms_len_ok id), syms_app, lenN_app; reflexivity). rewrite (SL (enum_sym f ++ range_sym f)). clear SL.
    pose proof (checks_do f (moved (with_order o x) bs) (passed x) bs h q G WF eq_refl EB PC) as X. cbn [order moved with_order] in X. rewrite EV in X.
    destruct (admitted f v); cbn [yields].
    - eapply reach_then; [exact X|]. rewrite N.add_assoc. unfold post_sym in *. unfold behind. destruct (i_big f).
      + eapply (little_step (moved (with_order o x) bs)) in PP. change (syms_len [(1, [], [])]) with 1. unfold with_order, moved in *. cbn [passed ahead order] in *. rewrite EB in *. exact PP.
      + cbn [syms_len fold_right]. rewrite N.add_0_r. unfold moved, with_order. cbn [passed ahead order]. rewrite EB, EO. apply reach_none.
    - eapply halts_as; [| |exact X]; unfold moved, with_order, behind; cbn [passed ahead]; [reflexivity|]. now rewrite EB.
  Qed.

  Lemma syms_len_app a b : syms_len (a ++ b) = syms_len a + syms_len b.
  Proof. rewrite <- !(syms_len_ok id), syms_app, lenN_app. reflexivity. Qed.
  Lemma wf_skip n l : wf_bytes l -> wf_bytes (skipn n l).
  Proof. unfold wf_bytes. intros W. rewrite <- (firstn_skipn n l) in W. apply Forall_app in W. tauto. Qed.
  Lemma wf_first n l : wf_bytes l -> wf_bytes (firstn n l).
  Proof. unfold wf_bytes. intros W. rewrite <- (firstn_skipn n l) in W. apply Forall_app in W. tauto. Qed.
  Lemma in_moved o x bs : in_place x -> wf_bytes bs -> in_place (moved (with_order o x) bs).
  Proof.
    unfold in_place, moved, with_order. cbn [passed ahead]. intros W B. apply Forall_app in W as (WP & WA). apply wf_app; [apply wf_app; assumption|]. now apply wf_skip.
  Qed.
  Lemma item_yields f x h q : item_good f -> id (i_name f) < 2 ^ 16 -> in_place x -> placed bc q (syms_code id (item_sym f)) ->
    yields (pt x q []) h (field_meaning host id m f x h) (q + syms_len (item_sym f)).
  Proof.
    intros G K WF P. rewrite (item_parts f G) in *. set (o := if i_big f then BE else order x).
    rewrite syms_app in P. apply placed_app in P as (P0 & P). rewrite syms_len_ok in P. rewrite syms_app in P. apply placed_app in P as (P1 & P2). rewrite syms_len_ok in P2.
    assert (R0 : reach (pt x q []) h (pt (with_order o x) (q + syms_len (pre_sym f)) []) h).
    { unfold pre_sym, o in *. destruct (i_big f); [change (syms_len _) with 1; now apply big_step|]. cbn [syms_len fold_right]. rewrite N.add_0_r. destruct x; apply reach_none. }
    eapply yields_then; [exact R0|]. clear R0 P0. rewrite syms_len_app, N.add_assoc. set (q1 := q + syms_len (pre_sym f)) in *. clearbody q1. rewrite syms_len_app, N.add_assoc.
    set (q2 := q1 + syms_len (core_sym f)) in *.
    pose proof G as (TY & TB & _). set (ty := i_type f) in *. pose proof (width_pos ty TY) as WP.
    assert (FD := finish_do f x o). fold ty in FD.
    assert (PA := P1). pose proof (placed_le _ _ _ P1) as PL. rewrite syms_len_ok in PL.
    assert (WX : in_place (with_order o x)) by exact WF. assert (WA : wf_bytes (ahead x)) by (apply Forall_app in WF; apply WF).
    unfold field_meaning. cbv zeta. fold ty o.
    destruct (i_const f) as [c|] eqn:EC.
    - assert (T : type_bytes ty <> None) by (apply TB; left; congruence). destruct (type_bytes ty) as [n|] eqn:TN; [|congruence]. destruct (type_width _ _ TN) as (EW & N1).
      assert (L4 : q2 = q1 + 4 + n).
      { unfold q2, core_sym. rewrite EC, <- (syms_len_ok id). unfold syms_code. cbn [map code flat_map instr_bytes inst ins opcode refs args fst snd app]. rewrite app_nil_r.
        rewrite app_nil_r, lenN_cons, lenN_app, lenN_cons. unfold int_bytes. rewrite lenN_bytes_of. fold ty. change (lenN (le_bytes 2 (id (i_name f)))) with 2. lia. }
      destruct (const_step (with_order o x) q1 ty n (id (i_name f)) c h TN) as (t & X); [|exact K|exact WX|].
      { unfold core_sym in P1. rewrite EC in P1. unfold syms_code in P1. cbn [map code flat_map instr_bytes inst ins opcode refs args fst snd app] in P1. rewrite !app_nil_r in P1. exact P1. }
      assert (LI : ip (pt (with_order o x) q1 []) < lenN bc) by (cbn [ip pt]; unfold q2 in L4; lia).
      rewrite <- L4 in X. unfold const_result in X. cbn [ahead order with_order] in X. destruct (N.ltb_spec (lenN (ahead x)) (width ty)) as [LT|GE].
      + eapply halts_as; [| |eapply halts_one; [exact LI|exact X]]; reflexivity.
      + destruct m eqn:EM.
        * eapply yields_then; [eapply reach_one; [|exact X]; split; [exact LI|cbn [ip pt set_ip set_cur set_buf set_stk set_boff]; lia]|]. apply FD; auto.
          -- rewrite lenN_bytes_of. lia.
          -- apply in_moved; [exact WF|apply wf_bytes_of].
          -- rewrite val_bytes, N2Nat.id. apply N.mod_small. pose proof (pattern_lt ty c ltac:(lia)) as PT. rewrite N.pow_mul_r in PT. exact PT.
        * cbv zeta in X. destruct (N.eqb_spec (val_of o (firstn (N.to_nat (width ty)) (ahead x))) (pattern ty c)) as [E|NE].
          -- destruct (host h _) as [h1 r]. destruct (r_ok r).
             ++ eapply yields_then; [eapply reach_one; [|exact X]; split; [exact LI|cbn [ip pt set_ip set_cur set_buf set_stk set_boff]; lia]|]. apply FD; auto.
                ** unfold lenN in *. rewrite firstn_length. lia.
                ** apply in_moved; [exact WF|]. now apply wf_first.
             ++ eapply halts_as; [| |eapply halts_one; [exact LI|exact X]]; reflexivity.
          -- eapply halts_as; [| |eapply halts_one; [exact LI|exact X]]; reflexivity.
    - assert (L3 : q2 = q1 + 3) by (unfold q2, core_sym; rewrite EC; reflexivity).
      destruct (scalar_step (with_order o x) q1 ty (id (i_name f)) h) as (t & X); [|exact TY|exact K|exact WX|].
      { unfold core_sym in P1. rewrite EC in P1. unfold syms_code in P1. cbn [map code flat_map instr_bytes inst ins opcode refs args fst snd app] in P1. rewrite !app_nil_r in P1. exact P1. }
      assert (LI : ip (pt (with_order o x) q1 []) < lenN bc) by (cbn [ip pt]; unfold q2 in L3; lia).
      rewrite <- L3 in X. unfold scalar_result in X. cbn [ahead order with_order] in X. destruct (N.ltb_spec (lenN (ahead x)) (width ty)) as [LT|GE].
      + destruct m; (eapply halts_as; [| |eapply halts_one; [exact LI|exact X]]; reflexivity).
      + destruct m eqn:EM.
        * destruct (host h _) as [h1 r]. cbv zeta in X. destruct (r_ok r); cbn [negb].
          -- destruct (truth_value ty (answer (width ty) 0 r)).
             ++ eapply yields_then; [eapply reach_one; [|exact X]; split; [exact LI|cbn [ip pt set_ip set_cur set_buf set_stk set_boff]; lia]|]. apply FD; auto.
                ** rewrite lenN_bytes_of. lia.
                ** apply in_moved; [exact WF|apply wf_bytes_of].
                ** rewrite val_bytes, N2Nat.id. apply N.mod_small. unfold answer. change 256 with (2 ^ 8). rewrite <- N.pow_mul_r. destruct (r_val r); [apply N.mod_lt; apply N.pow_nonzero; discriminate|].
                   apply N.neq_0_lt_0. apply N.pow_nonzero. discriminate.
             ++ eapply halts_as; [| |eapply halts_one; [exact LI|exact X]]; reflexivity.
          -- eapply halts_as; [| |eapply halts_one; [exact LI|exact X]]; reflexivity.
        * cbv zeta in X. destruct (truth_value ty (val_of o (firstn (N.to_nat (width ty)) (ahead x)))).
          -- destruct (host h _) as [h1 r]. destruct (r_ok r).
             ++ eapply yields_then; [eapply reach_one; [|exact X]; split; [exact LI|cbn [ip pt set_ip set_cur set_buf set_stk set_boff]; lia]|]. apply FD; auto.
                ** unfold lenN in *. rewrite firstn_length. lia.
                ** apply in_moved; [exact WF|]. now apply wf_first.
             ++ eapply halts_as; [| |eapply halts_one; [exact LI|exact X]]; reflexivity.
          -- eapply halts_as; [| |eapply halts_one; [exact LI|exact X]]; reflexivity.
  Qed.

  Lemma field_in f x h y h1 : in_place x -> field_meaning host id m f x h = Goes y h1 -> in_place y.
  Proof.
    unfold field_meaning. cbv zeta. intros WF E. assert (WA : wf_bytes (ahead x)) by (apply Forall_app in WF; apply WF). assert (WP : wf_bytes (passed x)) by (apply Forall_app in WF; apply WF).
    set (n := N.to_nat (width (i_type f))) in *.
    assert (B : forall o bs, wf_bytes bs -> in_place {| order := o; passed := passed x ++ bs; ahead := skipn n (ahead x) |}).
    { intros o bs W. unfold in_place. cbn [passed ahead]. apply wf_app; [now apply wf_app|now apply wf_skip]. }
    assert (C : forall o bs h2 v, (if admitted f v then Goes {| order := o; passed := passed x ++ bs; ahead := skipn n (ahead x) |} h2
      else Stops EValidation {| order := o; passed := passed x ++ bs; ahead := skipn n (ahead x) |} h2) = Goes y h1 -> wf_bytes bs -> in_place y).
    { intros o bs h2 v E1 W. destruct (admitted f v); [|discriminate]. injection E1 as <- _. now apply B. }
    destruct (lenN (ahead x) <? width (i_type f)); [discriminate|]. destruct m, (i_const f) as [c|].
    - eapply C; [exact E|apply wf_bytes_of].
    - destruct (host h _) as [h2 r]. destruct (r_ok r); [|discriminate]. cbn [negb] in E. destruct (truth_value _ _); [|discriminate]. eapply C; [exact E|apply wf_bytes_of].
    - destruct (_ =? _); [|discriminate]. destruct (host h _) as [h2 r]. destruct (r_ok r); [|discriminate]. eapply C; [exact E|now apply wf_first].
    - destruct (truth_value _ _); [|discriminate]. destruct (host h _) as [h2 r]. destruct (r_ok r); [|discriminate]. eapply C; [exact E|now apply wf_first].
  Qed.
  (** Computed fields *)
  Lemma computed_yields c x h q : computed_good c -> Forall (fun n => id n < 2 ^ 16) (leaf_names (Computed c)) -> in_place x -> placed bc q (syms_code id (computed_sym c)) ->
    yields (pt x q []) h (computed_meaning host id m c x h) (q + syms_len (computed_sym c)).
  Proof.
    intros ((GI & GO) & TB) F WF P. cbn [leaf_names] in F. apply Forall_app in F as (FE & FN). pose proof (Forall_inv FN) as K.
    unfold computed_sym in *. rewrite syms_app in P. apply placed_app in P as (P1 & P). rewrite syms_len_ok in P. rewrite syms_app in P. apply placed_app in P as (P2 & P). rewrite syms_len_ok in P.
    rewrite syms_app in P. apply placed_app in P as (P3 & P4). rewrite syms_len_ok in P4.
    change (syms_len [(100, [], []); (120, [c_name c], []); (101, [], [c_type c])]) with 6 in P4.
    rewrite !syms_len_app. change (syms_len [(100, [], []); (120, [c_name c], []); (101, [], [c_type c])]) with 6.
    set (ty := c_type c) in *. set (o := if c_big c then BE else order x).
    pose proof (condition_yields (c_expr c) x GI FE q [] h P1 ltac:(change (lenN (@nil N)) with 0; lia)) as CY.
    unfold computed_meaning. cbv zeta. fold ty o. destruct (condition host id (c_expr c) h) as [h1 [v|er|]]; [|exact CY|exact CY]. destruct CY as (CY & V64).
    set (q1 := q + syms_len (cond_sym (c_expr c))) in *. match type of P3 with placed _ ?z _ => set (q2 := z) in * end.
    assert (R0 : reach (pt x q1 [v]) h1 (pt (with_order o x) q2 [v]) h1).
    { unfold q2, o. destruct (c_big c); [change (syms_len _) with 1; now apply big_step|]. cbn [syms_len fold_right]. rewrite N.add_0_r. destruct x; apply reach_none. }
    eapply yields_then; [exact CY|]. eapply yields_then; [exact R0|]. clear R0 CY P1 P2.
    match goal with |- yields _ _ _ ?z => replace z with (q2 + 6 + syms_len (if c_big c then [(1, [], [])] else [])) by (unfold q2, q1; now rewrite !N.add_assoc) end. clearbody q2. clear q1.
    pose proof (placed_le _ _ _ P3) as PL. rewrite syms_len_ok in PL. change (syms_len [(100, [], []); (120, [c_name c], []); (101, [], [ty])]) with 6 in PL.
    unfold syms_code in P3. cbn [map code flat_map instr_bytes inst ins opcode refs args fst snd app] in P3. rewrite !app_nil_r in P3.
    apply placed_one in P3 as (HD & P3). apply placed_one in P3 as (HS & P3). replace (q2 + 1 + 1) with (q2 + 2) in * by lia.
    apply placed_app in P3 as (PK & P3). change (lenN (le_bytes 2 (id (c_name c)))) with 2 in P3. apply placed_one in P3 as (HE & P3). replace (q2 + 2 + 2) with (q2 + 4) in * by lia. replace (q2 + 4 + 1) with (q2 + 5) in * by lia.
    apply placed_one in P3 as (HT & _).
    assert (RD : reach (pt (with_order o x) q2 [v]) h1 (pt (with_order o x) (q2 + 1) [v; v]) h1).
    { eapply reach_one; [cbn [ip pt]; lia|]. rewrite (step_pt (with_order o x) q2 [v] 100 HD) by lia. unfold exec_op. change (classify 100) with CDup. reflexivity. }
    eapply yields_then; [exact RD|]. clear RD HD.
    destruct (host h1 _) as [h2 r] eqn:HH.
    assert (ST : exists t, interp host (step lm bc (pt (with_order o x) (q2 + 1) [v; v])) h1 = (if r_ok r then SCont (pt (with_order o x) (q2 + 4) [v]) else SHalt ECallback (pt (with_order o x) (q2 + 4) [v]), h2, t)).
    { rewrite (step_pt (with_order o x) (q2 + 1) [v; v] 120 HS) by lia. unfold exec_op. change (classify 120) with CStore. unfold store_ctx. cbn [ip pt]. replace (q2 + 1 + 1) with (q2 + 2) by lia.
      rewrite fetch_at by (auto; cbn [wbytes]; lia). cbn [lift wbytes]. rewrite (placed_val2 _ _ _ PK K). replace (q2 + 2 + 2) with (q2 + 4) by lia. cbv zeta. unfold pop. cbn [stk set_ip pt].
      change (PInt W8 v) with (cvar 8 v). destruct (r_ok r) eqn:HR.
      - erewrite interp_call; [|exact HH|exact HR]. eexists. reflexivity.
      - erewrite interp_call_no; [|exact HH|exact HR]. eexists. reflexivity. }
    destruct ST as (t & ST). destruct (r_ok r); cbn [negb]; [|eapply halts_as; [| |eapply halts_one; [|exact ST]]; [reflexivity|reflexivity|cbn [ip pt]; lia]].
    eapply yields_then; [eapply reach_one; [|exact ST]; cbn [ip pt]; lia|]. clear ST t HS PK.
    destruct (type_bytes ty) as [n|] eqn:TN; [|congruence]. destruct (type_width _ _ TN) as (EW & N1).
    assert (FIN : forall bs, lenN bs = width ty -> reach (pt (moved (with_order o x) bs) (q2 + 6) []) h2
      (pt {| order := if c_big c then LE else order x; passed := passed x ++ bs; ahead := skipn (N.to_nat (width ty)) (ahead x) |} (q2 + 6 + syms_len (if c_big c then [(1, [], [])] else [])) []) h2).
    { intros bs EB. unfold o. destruct (c_big c).
      - eapply (little_step (moved (with_order BE x) bs)) in P4. change (syms_len [(1, [], [])]) with 1. unfold with_order, moved in *. cbn [passed ahead order] in *. rewrite EB in *. exact P4.
      - cbn [syms_len fold_right]. rewrite N.add_0_r. unfold moved, with_order. cbn [passed ahead order]. rewrite EB. apply reach_none. }
    assert (LI : ip (pt (with_order o x) (q2 + 4) [v]) < lenN bc) by (cbn [ip pt]; lia).
    assert (TI : type_bytes (nthN bc (ip (pt (with_order o x) (q2 + 4) [v]) + 1)) = Some n) by (cbn [ip pt]; replace (q2 + 4 + 1) with (q2 + 5) by lia; rewrite HT; exact TN).
    destruct (N.ltb_spec (lenN (ahead x)) (width ty)) as [LT|GE].
    - eapply halts_as; [| |eapply (halts_one _ _ _ (with_order o x) (q2 + 6) []); [exact LI|]]; [reflexivity|reflexivity|]. instantiate (1 := []).
      destruct (type_int _ _ TN) as (w & IT & EW' & _). destruct (emit_int _ _ IT) as (EM & _).
      rewrite (step_pt (with_order o x) (q2 + 4) [v] 101 HE) by lia. unfold exec_op. change (classify 101) with CEmit. unfold ModelVM.emit. cbn [ip pt]. replace (q2 + 4 + 1) with (q2 + 5) by lia.
      rewrite arg1_eq by (auto; lia). cbn [lift]. rewrite HT. unfold pop. cbn [stk set_ip pt]. rewrite EM. unfold dlen. cbn [buf set_stk set_ip cur i_w pt with_order passed ahead]. rewrite EW', lenN_app.
      destruct (N.ltb_spec (lenN (passed x) + lenN (ahead x)) (lenN (passed x) + n)); [|lia]. replace (q2 + 5 + 1) with (q2 + 6) by lia. reflexivity.
    - destruct m eqn:EM.
      + pose proof (emit_enc host lm bc WB (pt (with_order o x) (q2 + 4) [v]) h2 n v [] HE EM TI ltac:(cbn [ip pt]; lia) eq_refl ltac:(cbn [cur buf pt with_order passed ahead]; rewrite lenN_app; lia)) as X.
        eapply reach_then; [eapply reach_one; [|exact X]; split; [exact LI|cbn [ip pt set_ip set_cur set_buf set_stk set_boff]; lia]|]. cbn [buf cur md en tr opt loops ip pt boff]. cbn [passed ahead order with_order].
        pose proof (moved_put (with_order o x) (bytes_of o (N.to_nat n) v) (q2 + 6) [] ltac:(rewrite lenN_bytes_of; cbn [ahead with_order]; lia)) as MP. rewrite lenN_bytes_of, N2Nat.id in MP. cbn [passed ahead order with_order] in MP.
        replace (q2 + 4 + 2) with (q2 + 6) by lia. rewrite MP. rewrite <- EW. apply FIN. rewrite lenN_bytes_of. lia.
      + pose proof (emit_dec host lm bc WB (pt (with_order o x) (q2 + 4) [v]) h2 n v [] HE EM WF TI ltac:(cbn [ip pt]; lia) eq_refl ltac:(cbn [cur buf pt with_order passed ahead]; rewrite lenN_app; lia)) as X.
        cbv zeta in X. cbn [en cur buf ip pt] in X. cbn [passed ahead order with_order] in X. rewrite sub_ahead, <- EW in X. replace (q2 + 4 + 2) with (q2 + 6) in X by lia.
        destruct (val_of o (firstn (N.to_nat (width ty)) (ahead x)) =? v).
        * eapply reach_then; [eapply reach_one; [|exact X]; split; [exact LI|cbn [ip pt set_ip set_cur set_buf set_stk set_boff]; lia]|]. 
          pose proof (moved_read (with_order o x) (width ty) (q2 + 6) [] ltac:(cbn [ahead with_order]; lia)) as MR. cbn [passed ahead order with_order] in MR.
          change (set_cur _ _) with (mkst m (passed x ++ ahead x) (q2 + 6) (lenN (passed x) + width ty) 0 o TNone false [] []).
          rewrite MR. apply FIN. unfold lenN in *. rewrite firstn_length. lia.
        * eapply halts_at; [exact LI| |exact X]. unfold stands, position. cbn [buf cur boff set_ip set_stk pt]. cbn [passed ahead with_order]. split; [reflexivity|lia].
  Qed.
  Lemma leaf_yields f x h q : leaf_good f -> Forall (fun n => id n < 2 ^ 16) (leaf_names f) -> in_place x -> placed bc q (syms_code id (leaf_sym f)) ->
    yields (pt x q []) h (leaf_meaning host id m f x h) (q + syms_len (leaf_sym f)).
  Proof. destruct f as [f|c]; [intros G F; apply item_yields; [exact G|exact (Forall_inv F)]|apply computed_yields]. Qed.
  Lemma computed_in c x h y h1 : in_place x -> computed_meaning host id m c x h = Goes y h1 -> in_place y.
  Proof.
    unfold computed_meaning. cbv zeta. intros WF E. assert (WA : wf_bytes (ahead x)) by (apply Forall_app in WF; apply WF). assert (WP : wf_bytes (passed x)) by (apply Forall_app in WF; apply WF).
    set (n := N.to_nat (width (c_type c))) in *.
    assert (B : forall o bs, wf_bytes bs -> in_place {| order := o; passed := passed x ++ bs; ahead := skipn n (ahead x) |}).
    { intros o bs W. unfold in_place. cbn [passed ahead]. apply wf_app; [now apply wf_app|now apply wf_skip]. }
    destruct (condition host id (c_expr c) h) as [h2 [v|er|]]; try discriminate. destruct (host h2 _) as [h3 r]. destruct (r_ok r); [|discriminate]. cbn [negb] in E.
    destruct (lenN (ahead x) <? width (c_type c)); [discriminate|]. destruct m.
    - injection E as <- _. apply B, wf_bytes_of.
    - destruct (_ =? v); [|discriminate]. injection E as <- _. apply B. now apply wf_first.
  Qed.
  Lemma leaf_in f x h y h1 : in_place x -> leaf_meaning host id m f x h = Goes y h1 -> in_place y.
  Proof. destruct f; [apply field_in|apply computed_in]. Qed.
  Lemma meanings_in : (forall p x h y h1, in_place x -> meaning host id m p x h = Goes y h1 -> in_place y) /\
    (forall cs v d x h y h1, in_place x -> (d = Goes y h1 -> in_place y) -> selected host id m cs v d x h = Goes y h1 -> in_place y).
  Proof.
    apply prog_cases_ind.
    - intros x h y h1 WF E. injection E as <- _. exact WF.
    - intros f r IH x h y h1 WF E. cbn [meaning] in E. destruct (leaf_meaning host id m f x h) as [z h2|er z h2|] eqn:EF; cbn [andthen] in E; try discriminate. eapply IH; [|exact E]. eapply leaf_in; eauto.
    - intros c t IHt e IHe r IHr x h y h1 WF E. cbn [meaning] in E. destruct (condition host id c h) as [h2 [v|er|]]; try discriminate. destruct (v =? 0).
      + destruct (meaning host id m e x h2) as [z h3|er z h3|] eqn:EF; cbn [andthen] in E; try discriminate. eapply IHr; [|exact E]. eapply IHe; eauto.
      + destruct (meaning host id m t x h2) as [z h3|er z h3|] eqn:EF; cbn [andthen] in E; try discriminate. eapply IHr; [|exact E]. eapply IHt; eauto.
    - intros n cs IC r IH x h y h1 WF E. rewrite meaning_switch in E. destruct (host h _) as [h2 rp]. destruct (r_ok rp); [|discriminate].
      destruct (selected host id m cs (answer 8 0 rp) (Goes x h2) x h2) as [z h3|er z h3|] eqn:EF; cbn [andthen] in E; try discriminate. eapply IH; [|exact E].
      eapply IC; [exact WF| |exact EF]. intros [= <- _]. exact WF.
    - intros v d x h y h1 WF D E. exact (D E).
    - intros l b IB more IH v d x h y h1 WF D E. rewrite selected_case in E. destruct l as [z|].
      + destruct (v =? pattern 19 z); [eapply IB; eauto|eapply IH; eauto].
      + eapply IH; [exact WF| |exact E]. intros E1. eapply IB; eauto.
  Qed.
  Definition meaning_in p := proj1 meanings_in p.
  Lemma progs_yields : lenN bc < 2 ^ 31 ->
    (forall p, prog_good p -> Forall (fun n => id n < 2 ^ 16) (prog_names p) -> forall x q h, in_place x -> placed bc q (syms_code id (prog_sym p)) ->
      yields (pt x q []) h (meaning host id m p x h) (q + syms_len (prog_sym p))) /\
    (forall cs, cases_good cs -> Forall (fun n => id n < 2 ^ 16) (case_names cs) -> forall x h v b after at_ d r, let l := real id (cases_sym cs) in let stop := b + at_ + total l + after in
      in_place x -> placed bc (b + at_) (bodies_code l after) -> stop <= lenN bc -> yields (pt x (b + d) []) h r stop ->
      yields (pt x (b + dispatch (cases_from at_ l) (match default_from at_ l with Some d' => d' | None => d end) v) []) h (selected host id m cs v r x h) stop).
  Proof.
    intros LB. apply prog_cases_ind; cbn [prog_good cases_good prog_names case_names].
    - intros _ _ x q h WF P. cbn [prog_sym meaning syms_len fold_right yields]. rewrite N.add_0_r. apply reach_none.
    - intros f r IH (GF & GR) F x q h WF P. apply Forall_app in F as (FF & FR). cbn [prog_sym meaning] in *. rewrite syms_app in P. apply placed_app in P as (PF & PR). rewrite syms_len_ok in PR. rewrite syms_len_app, N.add_assoc.
      eapply yields_and; [apply leaf_yields; auto|]. intros y h1 E. apply IH; auto. eapply leaf_in; eauto.
    - intros c t IHt e IHe r IHr ((GU & GO) & GT & GE & GR) F x q h WF P. cbn [prog_sym meaning] in *. apply Forall_app in F as (FC & F). apply Forall_app in F as (FT & F). apply Forall_app in F as (FE & FR).
      rewrite syms_app in P. apply placed_app in P as (PC & P). rewrite syms_len_ok in P. set (q1 := q + syms_len (cond_sym c)) in *.
      rewrite syms_app in P. apply placed_app in P as (PB & P). unfold syms_code at 1 in PB. cbn [map code flat_map instr_bytes inst ins opcode refs args fst snd app] in PB. rewrite app_nil_r in PB.
      change (lenN (syms_code id [(80, [], bytes_of LE 4 (syms_len (prog_sym t) + 5))])) with 5 in P.
      rewrite syms_app in P. apply placed_app in P as (PT & P). rewrite syms_len_ok in P. set (q2 := q1 + 5) in *. set (lt := syms_len (prog_sym t)) in *.
      rewrite syms_app in P. apply placed_app in P as (PJ & P). unfold syms_code at 1 in PJ. cbn [map code flat_map instr_bytes inst ins opcode refs args fst snd app] in PJ. rewrite app_nil_r in PJ.
      change (lenN (syms_code id [(82, [], bytes_of LE 4 (syms_len (prog_sym e)))])) with 5 in P.
      rewrite syms_app in P. apply placed_app in P as (PE & PR). rewrite syms_len_ok in PR. set (le := syms_len (prog_sym e)) in *.
      pose proof (placed_le _ _ _ PR) as LR. pose proof (placed_le _ _ _ PB) as LBR. pose proof (placed_le _ _ _ PE) as LEE. rewrite syms_len_ok in LEE. fold le in LEE.
      rewrite !syms_len_app. fold lt le. change (syms_len [(80, [], bytes_of LE 4 (lt + 5))]) with 5. change (syms_len [(82, [], bytes_of LE 4 le)]) with 5.
      pose proof (condition_yields c x GU FC q [] h PC ltac:(change (lenN (@nil N)) with 0; lia)) as CY. destruct (condition host id c h) as [h1 [v|er|]]; [|exact CY|exact CY]. destruct CY as (CY & _). fold q1 in CY.
      eapply yields_then; [exact CY|].
      pose proof (step_branch host lm bc WB q1 (lt + 5) (pt x 0 [v]) h1 v [] PB ltac:(lia) ltac:(lia) eq_refl) as SB.
      assert (RB : reach (pt x q1 [v]) h1 (pt x (if v =? 0 then q1 + 5 + (lt + 5) else q1 + 5) []) h1) by (eapply reach_one; [cbn [ip pt]; rewrite lenN_cons in LBR; split; [lia|destruct (v =? 0); lia]|exact SB]).
      eapply yields_then; [exact RB|]. clear CY SB RB.
      replace (q + (syms_len (cond_sym c) + (5 + (lt + (5 + (le + syms_len (prog_sym r))))))) with (q2 + lt + 5 + le + syms_len (prog_sym r)) by (unfold q2, q1; lia).
      eapply yields_and.
      + instantiate (1 := q2 + lt + 5 + le). destruct (v =? 0).
        * replace (q1 + 5 + (lt + 5)) with (q2 + lt + 5) by (unfold q2; lia). apply IHe; auto.
        * fold q2. specialize (IHt GT FT x q2 h1 WF PT). fold lt in IHt. destruct (meaning host id m t x h1) as [y h2|er y h2|]; cbn [yields] in *; auto.
          eapply reach_then; [exact IHt|]. eapply reach_one; [cbn [ip pt]; lia|].
          exact (step_jump host lm bc WB (q2 + lt) le (pt y 0 []) h2 PJ ltac:(lia) ltac:(lia)).
      + intros y h2 E. apply IHr; auto. destruct (v =? 0); eapply meaning_in; eauto.
    - intros n cs IC r IH (ND & LL & GC & GR) F x q h WF P. pose proof (Forall_inv F) as K. apply Forall_inv_tail in F. apply Forall_app in F as (FC & FR). rewrite meaning_switch. change (prog_sym (Switch n cs r)) with (switch_sym n (cases_sym cs) ++ prog_sym r) in *.
      rewrite syms_app in P. apply placed_app in P as (PS & PR). rewrite syms_len_ok in PR. rewrite syms_len_app, N.add_assoc. rewrite <- (syms_len_ok id) in PR |- *. rewrite switch_real in PS, PR |- *.
      set (l := real id (cases_sym cs)) in *.
      assert (SC : switch_code (id n) l (switch_bytes (id n) l)).
      { apply switch_is_code.
        - pose proof (f_equal lenN (labels_cases id cs 0)) as E. unfold lenN in E. rewrite !map_length in E. fold (lenN (labels cs)) in E. fold l in E. unfold lenN at 1. rewrite E. exact LL.
        - pose proof (labels_cases id cs 0) as E. fold l in E. apply Forall_forall. intros c I. apply (in_map fst) in I. rewrite E in I. apply in_map_iff in I as (z & <- & _).
          exact (pattern_lt 0x13 z ltac:(change (width 0x13) with 8; lia)).
        - pose proof (placed_le _ _ _ PS). lia. }
      destruct (host h _) as [h1 rp] eqn:HH. destruct (r_ok rp) eqn:HR.
      + destruct (switch_step host lm bc q (id n) l _ (pt x 0 []) h h1 rp WB LB K SC PS HH HR) as (after & t & LC & PB & LT & ST). rewrite LC in *.
        assert (OB : dispatch (cases_from 0 l) (default_offset l after) (answer 8 0 rp) <= total l + after).
        { destruct (dispatch_some (cases_from 0 l) (default_offset l after) (answer 8 0 rp)) as [->|(o & I & ->)].
          - unfold default_offset. destruct (default_from 0 l) eqn:DF; [apply default_bound in DF; lia|lia].
          - pose proof (proj1 (Forall_forall _ _) (cases_bound l 0) _ I) as CB. cbn [snd] in CB. lia. }
        rewrite jumps_forward in ST by lia.
        replace (q + (7 + total l + after)) with (q + 7 + total l + after) in * by lia.
        eapply yields_and; [|intros y h2 E; apply IH; auto; eapply (proj2 meanings_in); [exact WF| |exact E]; intros [= <- _]; exact WF].
        eapply yields_then; [eapply reach_one; [|exact ST]; cbn [ip set_ip pt]; lia|].
        assert (IC1 := IC GC FC x h1 (answer 8 0 rp) (q + 7) after 0 (total l + after) (Goes x h1) WF). cbv zeta in IC1. fold l in IC1. rewrite N.add_0_r in IC1. unfold default_offset. apply IC1; auto.
        cbn [yields]. replace (q + 7 + (total l + after)) with (q + 7 + total l + after) by lia. apply reach_none.
      + destruct (switch_refused host lm bc q (id n) l _ (pt x 0 []) h h1 rp WB LB K SC PS HH HR) as (L & t & ST). eapply halts_at; [|exact (stands_pt x x (q + 7) [] eq_refl eq_refl)|exact ST]. exact L.
    - intros _ _ x h v b after at_ d r WF P L Y. exact Y.
    - intros o bd IB more IH (GB & GM) F x h v b after at_ d r WF P L Y. apply Forall_app in F as (FB & FM).
      rewrite selected_case. change (real id (cases_sym (Case o bd more))) with ((option_map (pattern 19) o, syms_code id (prog_sym bd)) :: real id (cases_sym more)) in *. fold (real id (cases_sym more)) in *. set (l := real id (cases_sym more)) in *. set (c := syms_code id (prog_sym bd)) in *.
      cbn [total bodies_code cases_from default_from] in *.
      replace (b + at_ + (lenN c + 5 + total l) + after) with (b + (at_ + lenN c + 5) + total l + after) in * by lia.
      apply placed_app in P as (PB & P). rewrite app_assoc in P. apply placed_app in P as (PJ & P). rewrite len5 in P.
      replace (b + at_ + lenN c + 5) with (b + (at_ + lenN c + 5)) in P by lia.
      assert (BY : yields (pt x (b + at_) []) h (meaning host id m bd x h) (b + (at_ + lenN c + 5) + total l + after)).
      { specialize (IB GB FB x (b + at_) h WF PB). rewrite <- (syms_len_ok id) in IB. fold c in IB. destruct (meaning host id m bd x h) as [y h2|er y h2|]; cbn [yields] in *; auto.
        eapply reach_then; [exact IB|]. eapply reach_one; [cbn [ip pt]; lia|].
        pose proof (step_jump host lm bc WB (b + at_ + lenN c) (total l + after) (pt y 0 []) h2 PJ ltac:(lia) ltac:(lia)) as SJ.
        replace (b + at_ + lenN c + 5 + (total l + after)) with (b + (at_ + lenN c + 5) + total l + after) in SJ by lia. exact SJ. }
      specialize (IH GM FM x h v b after (at_ + lenN c + 5)). cbv zeta in IH. fold l in IH.
      destruct o as [z|]; cbn [option_map app dispatch].
      + destruct (N.eqb_spec v (pattern 19 z)) as [->|NE]; [exact BY|].
        replace (match match default_from (at_ + lenN c + 5) l with Some d0 => Some d0 | None => None end with Some d' => d' | None => d end) with (match default_from (at_ + lenN c + 5) l with Some d' => d' | None => d end) by (destruct (default_from (at_ + lenN c + 5) l); reflexivity).
        apply IH; auto.
      + replace (match match default_from (at_ + lenN c + 5) l with Some d0 => Some d0 | None => Some at_ end with Some d' => d' | None => d end) with (match default_from (at_ + lenN c + 5) l with Some d' => d' | None => at_ end) by (destruct (default_from (at_ + lenN c + 5) l); reflexivity).
        apply IH; auto.
  Qed.
  Definition prog_yields p (G : prog_good p) F (LB : lenN bc < 2 ^ 31) := proj1 (progs_yields LB) p G F.
  Lemma orders_yields l : forall x q h, placed bc q (syms_code id (map (fun b : bool => ((if b then 0x02 else 0x01), [], [])) l)) ->
    reach (pt x q []) h (pt (with_order (last (map (fun b : bool => if b then BE else LE) l) (order x)) x) (q + lenN l) []) h.
  Proof.
    induction l as [|b l IH]; intros x q h P.
    - cbn [map last]. change (lenN (@nil bool)) with 0. rewrite N.add_0_r. destruct x. apply reach_none.
    - cbn [map] in P. change (syms_code id (?a :: ?r)) with (syms_code id ([a] ++ r)) in P. rewrite syms_app in P. apply placed_app in P as (P1 & P2). rewrite syms_len_ok in P2.
      change (syms_len [(if b then 2 else 1, [], [])]) with 1 in P2.
      eapply reach_then with (s1 := pt (with_order (if b then BE else LE) x) (q + 1) []) (h1 := h); [destruct b; [now apply big_step|now apply little_step]|].
      pose proof (IH (with_order (if b then BE else LE) x) (q + 1) h P2) as R. cbn [order with_order passed ahead] in R. rewrite lenN_cons. replace (q + (lenN l + 1)) with (q + 1 + lenN l) by lia.
      replace (last (map (fun b0 : bool => if b0 then BE else LE) (b :: l)) (order x)) with (last (map (fun b0 : bool => if b0 then BE else LE) l) (if b then BE else LE)); [exact R|].
      clear. cbn [map]. revert b. induction l as [|c l IH]; intros b; [reflexivity|]. cbn [map last] in *. destruct l; [reflexivity|]. exact (IH b).
  Qed.
  Lemma name_step x q k h : placed bc q (syms_code id [(0x07, [k], [])]) -> reach (pt x q []) h (pt x (q + 3) []) h.
  Proof.
    unfold syms_code. cbn [map code flat_map instr_bytes inst ins opcode refs args fst snd app]. rewrite !app_nil_r. intros P. pose proof (placed_le _ _ _ P) as L. rewrite lenN_cons in L.
    change (lenN (le_bytes 2 (id k))) with 2 in L. apply placed_one in P as (HO & P). eapply reach_one; [cbn [ip pt]; lia|]. rewrite (step_pt x q [] 7 HO) by lia.
    unfold exec_op. change (classify 7) with (CSkip W2). cbn [ip pt]. rewrite fetch_at by (auto; cbn [wbytes]; lia). cbn [lift wbytes]. replace (q + 1 + 2) with (q + 3) by lia. reflexivity.
  Qed.
End Meaning.

(** ** A whole packet *)
Lemma last_orders l : forall d : bool, last (map (fun b : bool => if b then BE else LE) l) (if d then BE else LE) = if last l d then BE else LE.
Proof. induction l as [|b l IH]; intros d; [reflexivity|]. cbn [map last] in *. destruct l; [reflexivity|apply IH]. Qed.
Lemma source_yields {H} (host : H -> request -> H * reply) lm id k m data h : prog_good (s_body k) -> Forall (fun n => id n < 2 ^ 16) (source_names k) ->
  wf_bytes (syms_code id (source_sym k)) -> lenN (syms_code id (source_sym k)) < 2 ^ 31 -> wf_bytes data ->
  yields host lm (syms_code id (source_sym k)) m (init m data) h (meaning host id m (s_body k) (start k data) h) (lenN (syms_code id (source_sym k))).
Proof.
  intros G F WB LB WD. set (bc := syms_code id (source_sym k)) in *.
  assert (P : placed bc 0 bc) by (split; [unfold sub, lenN; cbn [N.to_nat skipn]; rewrite Nat2N.id; apply firstn_all|lia]).
  assert (P0 := P). unfold bc at 2 in P0. unfold source_sym in P0. rewrite syms_app in P0. apply placed_app in P0 as (PO & P0). rewrite syms_len_ok in P0. unfold body_sym in P0.
  change (syms_code id (?a :: ?r)) with (syms_code id ([a] ++ r)) in P0. rewrite syms_app in P0. apply placed_app in P0 as (PN & PB). rewrite syms_len_ok in PB.
  assert (LO : syms_len (map (fun b : bool => ((if b then 2 else 1), [], [])) (s_orders k)) = lenN (s_orders k)).
  { clear. induction (s_orders k) as [|b l IH]; [reflexivity|]. cbn [map syms_len fold_right]. unfold syms_len in IH. rewrite IH, lenN_cons. change (sym_len (if b then 2 else 1, [], [])) with 1. lia. }
  rewrite LO in *. change (syms_len [(7, [s_name k], [])]) with 3 in PB. rewrite !N.add_0_l in *.
  set (x0 := {| order := LE; passed := []; ahead := data |}).
  change (init m data) with (pt m x0 0 []).
  eapply yields_then; [apply (orders_yields host lm bc m id (s_orders k)); exact PO|]. cbn [order x0]. rewrite N.add_0_l.
  eapply yields_then; [eapply name_step; [exact WB|exact PN]|].
  replace (with_order _ x0) with (start k data).
  2: { unfold start, with_order, x0. cbn [passed ahead]. f_equal. symmetry. apply (last_orders (s_orders k) false). }
  replace (lenN bc) with (lenN (s_orders k) + 3 + syms_len (prog_sym (s_body k))).
  2: { unfold bc, source_sym, body_sym. rewrite syms_len_ok. change (?a :: prog_sym ?r) with ([a] ++ prog_sym r). rewrite !(syms_len_app id), LO. change (syms_len [(7, [s_name k], [])]) with 3. lia. }
  apply prog_yields; auto.
  unfold source_names in F. apply Forall_app in F. tauto.
Qed.

Lemma yields_ends {H} (host : H -> request -> H * reply) lm bc m data h r : yields host lm bc m (init m data) h r (lenN bc) -> ends_as host lm bc m data h r.
Proof.
  destruct r as [x h'|e x h'|]; cbn [yields ends_as].
  - intros (n & t & _ & R). exists (pt m x (lenN bc) []), t, (n + 1)%nat. split; [|split; [reflexivity|unfold position; cbn [cur boff pt]; lia]].
    intros fuel L. replace fuel with (n + Datatypes.S (fuel - n - 1))%nat by lia. rewrite R. cbn [run ip pt]. rewrite N.leb_refl. now rewrite app_nil_r.
  - intros (n & t & s' & _ & (A & B) & R). exists s', t, n. split; [|auto]. intros fuel L. replace fuel with (n + (fuel - n))%nat by lia. apply R.
  - intros (n & t & u & h' & _ & K & R). exists u, h', t, n. intros fuel L. replace fuel with (n + (fuel - n))%nat by lia. apply R.
Qed.
(** It comes to an end, and not because of memory *)
Lemma yields_contained {H} (host : H -> request -> H * reply) lm bc m data h r : yields host lm bc m (init m data) h r (lenN bc) ->
  exists o h' t, (match o with Done _ _ => True | Crash u => u = UShift \/ u = UOverflow | OutOfFuel => False end) /\
    forall fuel, lenN bc < N.of_nat fuel -> run host lm bc fuel (init m data) h = (o, h', t).
Proof.
  assert (F : forall n fuel, N.of_nat n + ip (init m data) <= lenN bc -> lenN bc < N.of_nat fuel -> exists f, fuel = (n + Datatypes.S f)%nat).
  { intros n fuel A B. cbn [init ip] in A. exists (fuel - n - 1)%nat. lia. }
  destruct r as [x h'|e x h'|]; cbn [yields].
  - intros (n & t & LN & R). exists (Done EOk (pt m x (lenN bc) [])), h', t. split; [exact Logic.I|]. intros fuel L.
    destruct (F n fuel LN L) as (f & ->). rewrite R. cbn [run ip pt]. rewrite N.leb_refl. now rewrite app_nil_r.
  - intros (n & t & s' & LN & _ & R). exists (Done e s'), h', t. split; [exact Logic.I|]. intros fuel L. destruct (F n fuel LN L) as (f & ->). apply R.
  - intros (n & t & u & h' & LN & K & R). exists (Crash u), h', t. split; [exact K|]. intros fuel L. destruct (F n fuel LN L) as (f & ->). apply R.
Qed.
Lemma source_wire E path k toks : holds_source E path k toks -> tame (s_body k) ->
  lenN (source_names k) <= 65535 -> 16 + table_bytes (source_names k) < 2 ^ 32 ->
  exists im pr id, (exists n, forall fuel, (n <= fuel)%nat -> compile_file E fuel path = CImage im) /\
    load_il im = Ok (Loaded pr) /\
    (forall n, In n (source_names k) -> exists p, get_key_name im pr (id n) = Ok (Some p) /\ string_at im p n) /\
    (forall n, In n (source_names k) -> id n < lenN (source_names k)) /\
    (forall n n', In n (source_names k) -> In n' (source_names k) -> id n = id n' -> n = n') /\
    sub im (pr_bytecode pr) (pr_bytecode_len pr) = syms_code id (source_sym k).
Proof.
  intros HS TM LN TB. destruct (compile_source E path k toks HS TM ltac:(lia)) as (names & ND & IN & C).
  destruct (fewer_bytes names ND (source_names k) ltac:(intros x I; now apply IN)) as (L & B).
  assert (TX : Forall text names).
  { pose proof (source_text _ _ _ _ HS) as TX. apply Forall_forall. intros x I. apply (proj1 (Forall_forall _ _) TX). now apply IN. }
  set (bc := syms_code (index_of names) (source_sym k)) in *.
  exists (image names bc), (LemImage.prog names bc), (index_of names). split; [exact C|]. split; [apply load_image; auto; lia|]. split; [|split; [|split]].
  - intros n I. apply IN in I. pose proof (index_bound names n I) as IB. destruct (name_of names bc TX ltac:(lia) ltac:(lia) _ IB) as (p & A & D).
    exists p. split; [exact A|]. now rewrite nth_index in D.
  - intros n I. apply IN in I. pose proof (index_bound names n I). lia.
  - intros n n' I I' EQ. apply IN in I, I'. rewrite <- (nth_index names n I), <- (nth_index names n' I'). now rewrite EQ.
  - apply prog_code; auto; lia.
Qed.
Lemma source_meaning {H} (host : H -> request -> H * reply) lm id k ws m data h : source_read k ws ->
  Forall (fun n => id n < 2 ^ 16) (source_names k) -> lenN (syms_code id (source_sym k)) < 2 ^ 31 -> wf_bytes data ->
  ends_as host lm (syms_code id (source_sym k)) m data h (meaning host id m (s_body k) (start k data) h).
Proof.
  intros R F LB WD. pose proof (source_good k ws R) as G. apply yields_ends. apply source_yields; auto. now apply syms_wf, source_wf.
Qed.
Lemma source_contained {H} (host : H -> request -> H * reply) lm id k ws m data h : source_read k ws ->
  Forall (fun n => id n < 2 ^ 16) (source_names k) -> lenN (syms_code id (source_sym k)) < 2 ^ 31 -> wf_bytes data ->
  wf_bytes (syms_code id (source_sym k)) /\
  exists o h' t, (match o with Done _ _ => True | Crash u => u = UShift \/ u = UOverflow | OutOfFuel => False end) /\
    forall fuel, lenN (syms_code id (source_sym k)) < N.of_nat fuel -> run host lm (syms_code id (source_sym k)) fuel (init m data) h = (o, h', t).
Proof.
  intros R F LB WD. pose proof (source_good k ws R) as G. assert (W : wf_bytes (syms_code id (source_sym k))) by now apply syms_wf, source_wf.
  split; [exact W|]. eapply yields_contained, source_yields; auto.
Qed.

(** ** Programs with every name kept *)
Lemma code_by_names id id' l : (forall n, In n (sym_names l) -> id n = id' n) -> syms_code id l = syms_code id' l.
Proof.
  induction l as [|[[op ns] a] l IH]; intros A; [reflexivity|]. change (?x :: l) with ([x] ++ l). rewrite !syms_app. f_equal.
  - unfold syms_code. cbn [map code flat_map inst ins instr_bytes opcode refs args fst snd]. rewrite !app_nil_r.
    assert (X : map id ns = map id' ns) by (apply map_ext_in; intros n I; apply A; cbn [sym_names flat_map fst snd]; apply in_or_app; now left). unfold instr_bytes, inst, ins. cbn [opcode refs args fst snd]. now rewrite X.
  - apply IH. intros n I. apply A. cbn [sym_names flat_map fst snd]. apply in_or_app. now right.
Qed.
Lemma found_index name l i : SpecImage.index_of name l = Some i -> In name l /\ i = index_of l name.
Proof.
  revert i. induction l as [|x l IH]; intros i; cbn [SpecImage.index_of index_of]; [discriminate|]. destruct (list_eq_dec N.eq_dec name x) as [->|NE].
  - intros [= <-]. split; [now left|]. destruct (list_eq_dec N.eq_dec x x); [reflexivity|contradiction].
  - destruct (SpecImage.index_of name l) as [j|]; [|discriminate]. intros [= <-]. destruct (IH j eq_refl) as (I & ->). split; [now right|].
    destruct (list_eq_dec N.eq_dec x name); [congruence|lia].
Qed.
(** The compiled program, when none of the source's names is missing in it *)
Lemma whole_wire E path k toks : holds_source E path k toks -> lenN (source_names k) <= 65535 -> 16 + table_bytes (source_names k) < 2 ^ 32 ->
  exists im pr, (exists n, forall fuel, (n <= fuel)%nat -> compile_file E fuel path = CImage im) /\ load_il im = Ok (Loaded pr) /\
    forall id, (forall n, In n (source_names k) -> get_key_id im pr n = Ok (id n) /\ id n <> 0xFFFF) ->
      (forall n, In n (source_names k) -> id n < lenN (source_names k)) /\
      (forall n n', In n (source_names k) -> In n' (source_names k) -> id n = id n' -> n = n') /\
      sub im (pr_bytecode pr) (pr_bytecode_len pr) = syms_code id (source_sym k).
Proof.
  intros HS LN TB. destruct (compile_whole E path k toks HS ltac:(lia)) as (ns & bc & ND & TX & IN & BC & C).
  destruct (fewer_bytes ns ND (source_names k) IN) as (L & B).
  exists (image ns bc), (LemImage.prog ns bc). split; [exact C|]. split; [apply load_image; auto; lia|]. intros id KN.
  pose proof (source_text _ _ _ _ HS) as ST. destruct HS as (src & ws & _ & _ & _ & R & _). pose proof (source_good k ws R) as G.
  assert (K : forall n, In n (source_names k) -> In n ns /\ id n = index_of ns n).
  { intros n I. destruct (KN n I) as (E1 & E2). rewrite id_of in E1 by (auto; try lia; exact (proj1 (Forall_forall _ _) ST n I)). injection E1 as E1.
    destruct (SpecImage.index_of n ns) as [i|] eqn:EI; [|congruence]. apply found_index in EI as (I' & ->). auto. }
  split; [|split].
  - intros n I. destruct (K n I) as (I' & ->). pose proof (index_bound ns n I'). lia.
  - intros n n' I I' EQ. destruct (K n I) as (J & E1), (K n' I') as (J' & E2). rewrite E1, E2 in EQ. rewrite <- (nth_index ns n J), <- (nth_index ns n' J'). now rewrite EQ.
  - rewrite prog_code by (auto; lia). rewrite BC by (intros n I; now apply K). apply code_by_names. intros n I. apply source_sym_names in I; auto. symmetry. now apply K.
Qed.
