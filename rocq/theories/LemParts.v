(** Compiling packets with bit fields and checksums: fields. *)
From Coq Require Import Strings.String ZifyBool ZifyNat ZifyN.
From Verif Require Import Base SpecBytes SpecVM ModelVM ModelImage ModelText SpecText ModelNames ModelParse ModelSchema SpecParse LemBase LemStr LemText
  LemParse SpecNames LemNames SpecCrc SpecPacket LemPacket SpecMessage LemMono SpecNest LemNest LemNestFile SpecParts.
Ltac Zify.zify_post_hook ::= Z.div_mod_to_equations.

(** ** Checksum decorators *)
Definition deco_of (c : crcset) : deco :=
  with_be (k_big c) (with_crc (match k_wide c with None => None | Some true => Some 32 | Some false => Some 16 end) (k_poly c) (k_init c) (k_xor c) (k_in c) (k_out c) deco0).
Lemma deco_of_0 : deco_of crcset0 = deco0.
Proof. reflexivity. Qed.
Ltac keywords := repeat match goal with |- context [match_keyword (of_word ?w) ?kw] =>
  let v := eval vm_compute in (match_keyword (of_word w) kw) in change (match_keyword (of_word w) kw) with v end; cbn [orb]; cbv iota.
Lemma crcdec_run E d ws : crcdec_read d ws -> forall c f ts p y x pv o s t r,
  map word_of ts = ws -> y :: x = ts ++ t :: r -> Forall plain (ts ++ [t]) -> tk y = TAt /\
  forall B (k : deco -> par B), pbind advance (fun _ => pbind (decorator E f (deco_of c)) k) (going p y x pv o s) = k (deco_of (set_crc c d)) (going p t r (last ts pv) o s).
Proof.
  intros R c f ts p y x pv o s t r M X P.
  destruct R as [b w I|b dg L|v dg L B|v dg L B|v dg L B| |]; unfold deco_words, in_parens in M; cbn [app] in M; repeat one_token; cbn [app] in X, P; injection X as -> ->; split_plain;
    (split; [exact (word_kind _ _ _ W)|]); intros B' k; rewrite bind_adv by auto; unfold decorator; rewrite bind_bind, bind_cur, bind_bind;
    (rewrite bind_con; [|exact (word_kind _ _ _ W0)|auto]); rewrite !(keyword_word t1), W0; change (TIdentifier, chars ?w) with (ident w).
  1:{ destruct (order_facts _ _ I) as (F1 & F2). cbv zeta in F1, F2. rewrite F1. destruct b; [reflexivity|]. rewrite F2 by reflexivity. reflexivity. }
  5:{ keywords. reflexivity. }
  5:{ keywords. reflexivity. }
  all: keywords; rewrite bind_bind, bind_con; [|exact (word_kind _ _ _ W1)|auto]; rewrite bind_bind; unfold deco_args; rewrite !(keyword_word t1), W0; change (TIdentifier, chars ?w) with (ident w); keywords;
    rewrite bind_bind, bind_num; [|exact (word_kind _ _ _ W2)|auto]; rewrite bind_ret, bind_bind, bind_con; [|exact (word_kind _ _ _ W3)|auto]; rewrite bind_ret, (word_text _ _ _ W2), (u32_of _ _ L) by (try destruct b; lia || auto); cbn [last].
  - destruct b; reflexivity.
  - reflexivity.
  - reflexivity.
  - reflexivity.
Qed.
Lemma crcdecs_run E ds ws : several crcdec_read ds ws -> forall c f ts p a x pv o s t r,
  map word_of ts = ws -> a :: x = ts ++ t :: r -> Forall plain (ts ++ [t]) -> tk t <> TAt -> (length ds < f)%nat ->
  decorators E f (deco_of c) (going p a x pv o s) = POk (deco_of (fold_left set_crc ds c)) (going p t r (last ts pv) o s).
Proof.
  induction 1 as [|d l ws wr R1 R IH]; intros c f ts p a x pv o s t r M X P NT L; (destruct f as [|f]; [cbn in L; lia|]).
  - destruct ts; [|discriminate]. injection X as -> ->. cbn [decorators]. rewrite bind_at, is_kind_false by auto. reflexivity.
  - apply map_eq_app in M as (t1 & t2 & -> & M1 & M2). rewrite <- app_assoc in X, P.
    assert (exists h hs, t2 ++ t :: r = h :: hs /\ plain h /\ Forall plain (t1 ++ [h])) as (h & hs & EH & PH & PT1).
    { apply Forall_app in P as (A & B).
      destruct t2 as [|h hs]; [exists t, r|exists h, (hs ++ t :: r)]; (split; [reflexivity|]); pose proof (Forall_inv B) as PH; (split; [exact PH|]); apply Forall_app; split; auto. }
    rewrite EH in X. destruct (crcdec_run E d ws R1 c f t1 p a x pv o s h hs M1 X PT1) as (KA & D).
    cbn [decorators]. rewrite bind_at, is_kind_true by exact KA. cbv iota. rewrite D. cbn [length] in L.
    rewrite (IH (set_crc c d) f t2 p h hs (last t1 pv) o s t r M2 (eq_sym EH)); auto; [|apply Forall_app in P; apply P|lia].
    cbn [fold_left]. now rewrite last_two.
Qed.

(** ** Decorators of fields of one number *)
Definition apply_num (d : deco) (x : numdec) : deco :=
  match x with
  | NOrder b => with_be b d
  | NAdd z => with_int KAdd z d
  | NSub z => with_int KSub z d
  | NMul z => with_int KMul z d
  | NDiv z => with_int KDiv z d
  | NScale x => with_linear x (d_offset d) d
  | NOffset x => with_linear (match d_kind d with KScale => d_scale d | _ => 0x3FF0000000000000 end) x d
  | NOptional => d
  end.
Lemma numdec_run E x ws : numdec_read (e_strtod E) x ws -> forall d f ts p y tl pv o s t r,
  map word_of ts = ws -> y :: tl = ts ++ t :: r -> Forall plain (ts ++ [t]) -> tk y = TAt /\
  forall B (k : deco -> par B), pbind advance (fun _ => pbind (decorator E f d) k) (going p y tl pv o s) =
    k (apply_num d x) (going p t r (last ts pv) (o ++ if is_optional x then [0x4A] else []) s).
Proof.
  intros R d f ts p y tl pv o s t r M X P.
  destruct R as [b w I|z dg L|z dg L|z dg L|z dg L|dg L D64|dg L D64|]; unfold deco_words, in_parens in M; cbn [app] in M; repeat one_token; cbn [app] in X, P; injection X as -> ->; split_plain;
    (split; [exact (word_kind _ _ _ W)|]); intros B' k; cbn [is_optional]; rewrite ?app_nil_r; rewrite bind_adv by auto; unfold decorator; rewrite bind_bind, bind_cur, bind_bind;
    (rewrite bind_con; [|exact (word_kind _ _ _ W0)|auto]); rewrite !(keyword_word t1), W0; change (TIdentifier, chars ?w) with (ident w).
  1:{ destruct (order_facts _ _ I) as (F1 & F2). cbv zeta in F1, F2. rewrite F1. destruct b; [reflexivity|]. rewrite F2 by reflexivity. reflexivity. }
  7:{ keywords. rewrite bind_bind, bind_emit. reflexivity. }
  all: keywords; rewrite bind_bind, bind_con; [|exact (word_kind _ _ _ W1)|auto]; rewrite bind_bind; unfold deco_args; rewrite !(keyword_word t1), W0; change (TIdentifier, chars ?w) with (ident w); keywords;
    rewrite bind_bind; unfold take_i64, take_double, take_number, number_i64; rewrite !bind_bind, bind_cur, bind_bind, bind_con; [|exact (word_kind _ _ _ W2)|auto]; rewrite bind_ret, ?(word_text _ _ _ W2).
  1-4: rewrite (int_text_value _ _ L); cbn [of_result]; rewrite bind_ret, bind_ret, bind_bind, bind_con; [|exact (word_kind _ _ _ W3)|auto]; rewrite bind_ret; reflexivity.
  all: unfold parse_number_double; destruct (N.leb_spec 63 (lenN dg)) as [?|_]; [lia|]; rewrite bind_ret, bind_ret, bind_bind, bind_con; [|exact (word_kind _ _ _ W3)|auto]; rewrite bind_ret; reflexivity.
Qed.
Definition optional_code (ds : list numdec) : list N := map (fun _ => 0x4A) (filter is_optional ds).
Lemma numdecs_run E ds ws : several (numdec_read (e_strtod E)) ds ws -> forall d f ts p a x pv o s t r,
  map word_of ts = ws -> a :: x = ts ++ t :: r -> Forall plain (ts ++ [t]) -> tk t <> TAt -> (length ds < f)%nat ->
  decorators E f d (going p a x pv o s) = POk (fold_left apply_num ds d) (going p t r (last ts pv) (o ++ optional_code ds) s).
Proof.
  induction 1 as [|c l ws wr R1 R IH]; intros d f ts p a x pv o s t r M X P NT L; (destruct f as [|f]; [cbn in L; lia|]).
  - destruct ts; [|discriminate]. injection X as -> ->. cbn [decorators]. rewrite bind_at, is_kind_false by auto. cbn. rewrite app_nil_r. reflexivity.
  - apply map_eq_app in M as (t1 & t2 & -> & M1 & M2). rewrite <- app_assoc in X, P.
    assert (exists h hs, t2 ++ t :: r = h :: hs /\ plain h /\ Forall plain (t1 ++ [h])) as (h & hs & EH & PH & PT1).
    { apply Forall_app in P as (A & B).
      destruct t2 as [|h hs]; [exists t, r|exists h, (hs ++ t :: r)]; (split; [reflexivity|]); pose proof (Forall_inv B) as PH; (split; [exact PH|]); apply Forall_app; split; auto. }
    rewrite EH in X. destruct (numdec_run E c ws R1 d f t1 p a x pv o s h hs M1 X PT1) as (KA & D).
    cbn [decorators]. rewrite bind_at, is_kind_true by exact KA. cbv iota. rewrite D. cbn [length] in L.
    rewrite (IH (apply_num d c) f t2 p h hs (last t1 pv) _ s t r M2 (eq_sym EH)); auto; [|apply Forall_app in P; apply P|lia].
    cbn [fold_left]. rewrite last_two, <- app_assoc. do 4 f_equal. unfold optional_code. cbn [filter]. destruct (is_optional c); reflexivity.
Qed.
(** What they leave *)
Definition num_deco (c : numset) (d : deco) : Prop :=
  (d_alone d = false /\ d_fixed d = None /\ d_count d = None /\ d_const d = None /\ d_eof d = false /\ d_range d = None /\ d_crc d = None /\ d_expr d = false) /\
  d_be d = u_big c /\ d_offset d = u_off c /\
  match u_conv c with
  | CSame => d_kind d = KNone
  | CAdd z => d_kind d = KAdd /\ d_int d = z
  | CSub z => d_kind d = KSub /\ d_int d = z
  | CMul z => d_kind d = KMul /\ d_int d = z
  | CDiv z => d_kind d = KDiv /\ d_int d = z
  | CLinear a b => d_kind d = KScale /\ d_scale d = a /\ d_offset d = b
  end.
Lemma num_deco_step c d x : num_deco c d -> num_deco (set_num c x) (apply_num d x).
Proof.
  intros (A & B & O & K). destruct x; cbn [set_num apply_num]; (split; [exact A|]); cbn [u_big u_conv u_off with_be with_int with_linear d_be d_offset d_kind d_int d_scale]; repeat split; auto.
  destruct (u_conv c); [| | | | |destruct K as (K & S & _); now rewrite K]; try (rewrite K; reflexivity); destruct K as (K & _); rewrite K; reflexivity.
Qed.
Lemma num_deco_all ds : num_deco (num_of ds) (fold_left apply_num ds deco0).
Proof.
  unfold num_of. assert (B : num_deco numset0 deco0) by (repeat split). revert B. generalize numset0, deco0.
  induction ds as [|x ds IH]; intros c d B; [exact B|]. cbn [fold_left]. apply IH. now apply num_deco_step.
Qed.
Definition conv_sym (c : conversion) : list sym := map (fun i => (opcode i, [], args i)) (conv_instrs c).
Lemma conv_sym_ok id c : map (inst id) (conv_sym c) = conv_instrs c.
Proof. destruct c; reflexivity. Qed.
Lemma conv_code c d f : num_deco c d -> trans_code d = sized f (conv_sym (u_conv c)).
Proof.
  intros (_ & _ & _ & K). unfold trans_code. destruct (u_conv c) as [|z|z|z|z|a b]; cbn [conv_sym conv_instrs map ins opcode args];
    [rewrite K; reflexivity|..]; destruct K as (-> & K); try destruct K as (K & K2); rewrite sized_one; cbn [map flat_map app]; rewrite <- !le8_bytes; subst; reflexivity.
Qed.
Definition bare (d : deco) : Prop := d_alone d = false /\ d_fixed d = None /\ d_count d = None /\ d_const d = None /\ d_eof d = false.
Lemma bare_num c d : num_deco c d -> bare d.
Proof. intros ((A & B & C & D & F & _) & _). repeat split; auto. Qed.

(** ** Fields *)
Lemma enter_field E fuel p y x pv o s : p_err p = false -> tk y = TAt \/ tk y = TIdentifier ->
  parse_field E (S (S fuel)) (going p y x pv o s) = pbind (decorators E (S fuel) deco0) (field_rest E) (going p y x pv o s).
Proof.
  intros ER KY. cbn [parse_field]. rewrite bind_get. change (p_err (going p y x pv o s)) with (p_err p). rewrite ER.
  rewrite bind_skip by (destruct KY as [K|K]; rewrite K; discriminate). rewrite bind_get. change (p_cur (going p y x pv o s)) with y.
  destruct KY as [-> | ->]; reflexivity.
Qed.
Definition simple (d : deco) : Prop := d_alone d = false /\ trans_code d = [] /\ d_fixed d = None /\ d_count d = None /\ d_const d = None /\ d_eof d = false.
Definition width_read (w : option N) (ws : list word) : Prop :=
  match w with None => ws = [] | Some n => exists d, literal d n /\ n < 256 /\ ws = [sign TColon ":"; (TNumber, d)] end.
Lemma typed_gen E d ty w n wd ws : bare d -> In (ty, w) type_words -> width_read wd ws -> forall ts p y x pv o s t r,
  map word_of ts = ident w :: (TIdentifier, n) :: ws ++ [sign TSemicolon ";"] -> y :: x = ts ++ t :: r -> Forall plain (ts ++ [t]) ->
  plain_types p -> p_enums p = [] -> ~ In n (p_fields p) -> Forall text (p_fields p) -> Forall text s -> lenN (table1 s n) <= 65536 ->
  exists semi pv', tk semi = TSemicolon /\ last ts pv = semi /\ word_of y = ident w /\
  field_rest E d (going p y x pv o s) =
  pbind (basic_field E y d (match wd with Some n => n | None => 0 end) (index_of (table1 s n) n)) (fun go => when go (consume TSemicolon ;; when (d_be d) (emit [0x01])))
    (going (set_struct (p_sname p) (p_fields p ++ [n]) p) semi (t :: r) pv' ((o ++ trans_code d) ++ if d_be d then [0x02] else []) (table1 s n)).
Proof.
  intros (DA & DF & DC & DK & DE) IT WR ts p y x pv o s t r M X P PS PE NI FT ST SL.
  one_token. one_token. apply map_eq_app in M as (tw & ts' & -> & MW & M). one_token. one_token. rename t0 into ty0, t1 into nt, t2 into semi.
  cbn [app] in X, P. injection X as -> ->. exists semi.
  assert (PP : plain nt /\ Forall plain tw /\ plain semi /\ plain t).
  { inversion P as [|? ? P1 P2]; subst. inversion P2 as [|? ? P3 P4]; subst. rewrite <- app_assoc in P4. apply Forall_app in P4 as (P5 & P6). cbn [app] in P6. inversion P6 as [|? ? P7 P8]; inversion P8; auto. }
  destruct PP as (PN & PW & PSE & PT).
  exists (last tw nt). split; [exact (word_kind _ _ _ W1)|]. split; [change (ty0 :: nt :: tw ++ [semi]) with ((ty0 :: nt :: tw) ++ [semi]); now rewrite last_last|]. split; [exact W|].
  unfold field_rest. rewrite !bind_at. rewrite (is_kind_false TSemicolon) by (rewrite (word_kind _ _ _ W); discriminate). rewrite DA. cbn [andb].
  rewrite bind_emit. set (o1 := o ++ trans_code d). rewrite bind_cur, bind_con; [|exact (word_kind _ _ _ W)|auto]. rewrite bind_cur.
  rewrite (is_kind_false TSelf) by (rewrite (word_kind _ _ _ W0); discriminate).
  rewrite <- app_assoc. cbn [app].
  assert (exists z zs, tw ++ semi :: t :: r = z :: zs /\ plain z) as (z & zs & EZ & PZ).
  { destruct tw as [|z zs]; [exists semi, (t :: r)|exists z, (zs ++ semi :: t :: r)]; (split; [reflexivity|]); auto. exact (Forall_inv PW). }
  rewrite EZ. rewrite bind_con; [|exact (word_kind _ _ _ W0)|auto]. rewrite (word_text _ _ _ W0), fields_add by auto. rewrite bind_name by auto.
  set (p1 := set_struct _ _ p). set (s1 := table1 s n). set (k := index_of s1 n).
  rewrite bind_at.
  assert (WD : forall B (kk : N -> par B), pbind (if is_kind TColon z then advance ;; consume TNumber ;; let% t := get p_prev in ret (parse_number_u32 (ttext t) mod 256) else ret 0) kk (going p1 z zs nt o1 s1) =
    kk (match wd with Some n => n | None => 0 end) (going p1 semi (t :: r) (last tw nt) o1 s1)).
  { intros B kk. destruct wd as [m|]; cbn [width_read] in WR.
    - destruct WR as (dg & L & LB & ->). repeat one_token. cbn [app] in EZ. injection EZ as <- <-.
      rewrite is_kind_true by exact (word_kind _ _ _ W2). inversion PW as [|? ? PW1 PW2]; subst. inversion PW2 as [|? ? PW3 _]; subst.
      rewrite bind_bind, bind_adv by auto. rewrite bind_bind, bind_con; [|exact (word_kind _ _ _ W3)|auto]. rewrite bind_bind, bind_get, bind_ret. cbn [last].
      change (p_prev (going p1 semi (t :: r) t1 o1 s1)) with t1. rewrite (word_text _ _ _ W3), (u32_of _ _ L) by lia. rewrite N.mod_small by lia. reflexivity.
    - subst ws. repeat one_token. cbn [app] in EZ. injection EZ as <- <-. rewrite is_kind_false by (rewrite (word_kind _ _ _ W1); discriminate). reflexivity. }
  rewrite WD. clear WD.
  destruct (shape_run (Scalar ty One) [ident w] [] (read_one ty w IT) d ty0 [] p1 semi (t :: r) (last tw nt) o1 s1 semi (t :: r) DF DC ltac:(now rewrite W) eq_refl eq_refl ltac:(repeat constructor; apply PSE) (word_kind _ _ _ W1)) as (u & SH).
  rewrite SH. cbv zeta. cbn [fst snd shaped shape_of s_array s_arr_op s_str_op some andb last]. rewrite bind_when.
  assert (EM : forall B (kk : unit -> par B) b c q, pbind (when b (emit c)) kk (going p1 semi (t :: r) (last tw nt) q s1) = kk tt (going p1 semi (t :: r) (last tw nt) (q ++ (if b then c else [])) s1)).
  { intros B kk [] c0 q; [reflexivity|]. cbn [when]. rewrite app_nil_r. reflexivity. }
  rewrite EM. rewrite bind_emit. unfold open_code. rewrite DE, DC, DF. cbn [mk_shape s_array s_arr_op s_str_op some andb negb]. change (negb (0 =? 0)) with false. cbn [app]. cbv iota. rewrite app_nil_r. rewrite DK.
  rewrite bind_bind, bind_get, bind_bind, bind_get.
  match goal with |- context [going p1 semi (t :: r) ?a ?b ?c] => set (g := going p1 semi (t :: r) a b c) end.
  change (p_structs g) with (p_structs p). change (p_enums g) with (p_enums p). rewrite (word_text _ _ _ W), PS, PE.
  2:{ right. apply in_map_iff. exists (ty, w). auto. }
  cbn [find_enum find]. rewrite keyword_word, W. destruct (type_facts _ _ IT) as (_ & -> & _). cbn [app]. fold k. unfold pbind at 1. symmetry. unfold pbind at 1. destruct (basic_field _ _ _ _ _ g) as [go q| |]; reflexivity.
Qed.

Lemma typed_run E d ty w n wd ws : simple d -> In (ty, w) type_words -> width_read wd ws -> forall ts p y x pv o s t r,
  map word_of ts = ident w :: (TIdentifier, n) :: ws ++ [sign TSemicolon ";"] -> y :: x = ts ++ t :: r -> Forall plain (ts ++ [t]) ->
  plain_types p -> p_enums p = [] -> ~ In n (p_fields p) -> Forall text (p_fields p) -> Forall text s -> lenN (table1 s n) <= 65536 ->
  exists semi pv', tk semi = TSemicolon /\ last ts pv = semi /\ word_of y = ident w /\
  field_rest E d (going p y x pv o s) =
  pbind (basic_field E y d (match wd with Some n => n | None => 0 end) (index_of (table1 s n) n)) (fun go => when go (consume TSemicolon ;; when (d_be d) (emit [0x01])))
    (going (set_struct (p_sname p) (p_fields p ++ [n]) p) semi (t :: r) pv' (o ++ if d_be d then [0x02] else []) (table1 s n)).
Proof.
  intros (DA & DT & B) IT WR ts p y x pv o s t r M X P PS PE NI FT ST SL.
  destruct (typed_gen E d ty w n wd ws (conj DA B) IT WR ts p y x pv o s t r M X P PS PE NI FT ST SL) as (semi & pv' & K1 & K2 & K3 & R).
  rewrite DT, app_nil_r in R. eauto 6.
Qed.

(** ** Instructions with names in place of numbers *)
Definition bit_sym (b : bitpart) : sym :=
  match b with
  | Bit sg w n => (if sg then 0x21 else 0x20, [n], [w])
  | Pad w => (0x23, [], [w])
  | Fill b => (0x24, [], [if b then 1 else 0])
  end.
Definition check_sym (c : crcset) : sym := (opcode (check_instr c), [], args (check_instr c)).
Definition part_sym (p : part) : list sym :=
  match p with
  | Member m => member_sym [] m
  | Bits l => map bit_sym l
  | Check ds _ => smarked (k_big (crc_of ds)) [check_sym (crc_of ds)]
  | Numeric ds ty n => map (fun _ => (0x4A, [], [])) (filter is_optional ds) ++ conv_sym (u_conv (num_of ds)) ++ smarked (u_big (num_of ds)) [(ty, [n], [])]
  end.
Lemma part_sym_ok id p : map (inst id) (part_sym p) = part_instrs id p.
Proof.
  destruct p as [m|l|ds n|ds ty n]; cbn [part_sym part_instrs]; [apply member_sym_ok| |rewrite smarked_ok; reflexivity|rewrite !map_app, conv_sym_ok, smarked_ok, map_map; reflexivity].
  rewrite map_map. apply map_ext. intros [sg w n|w|b]; reflexivity.
Qed.
Definition parts_sym (ps : list part) : list sym := flat_map part_sym ps.
Lemma parts_sym_ok id ps : map (inst id) (parts_sym ps) = flat_map (part_instrs id) ps.
Proof. unfold parts_sym. rewrite map_flat. apply flat_map_ext_in. apply Forall_forall. intros p _. apply part_sym_ok. Qed.
Lemma part_refs p n : In n (sym_refs (part_sym p)) <-> In n (part_names p).
Proof.
  destruct p as [m|l|ds q|ds ty q]; cbn [part_sym part_names]; [apply member_refs| |rewrite refs_marked; cbn; tauto|].
  2:{ rewrite !refs_app, !in_app_iff, refs_marked. assert (A : forall l : list numdec, ~ In n (sym_refs (map (fun _ => (0x4A, [], [])) l))) by (intros l; induction l; auto).
      assert (B : ~ In n (sym_refs (conv_sym (u_conv (num_of ds))))) by (destruct (u_conv (num_of ds)); cbn; tauto). pose proof (A (filter is_optional ds)). cbn. tauto. }
  induction l as [|b l IH]; [tauto|]. cbn [map flat_map]. change (sym_refs (bit_sym b :: map bit_sym l)) with (snd (fst (bit_sym b)) ++ sym_refs (map bit_sym l)).
  rewrite !in_app_iff, IH. destruct b; cbn; tauto.
Qed.
Lemma parts_refs ps n : In n (sym_refs (parts_sym ps)) <-> In n (flat_map part_names ps).
Proof. unfold parts_sym. induction ps as [|a l IH]; [tauto|]. cbn [flat_map]. rewrite refs_app, !in_app_iff, IH, part_refs. tauto. Qed.

(** ** One field *)
Definition single (p : part) : Prop := match p with Bits [_] | Member _ | Check _ _ | Numeric _ _ _ => True | _ => False end.
Lemma set_same p : set_struct (p_sname p) (p_fields p ++ []) p = p.
Proof. rewrite app_nil_r. destruct p. reflexivity. Qed.
Lemma type_word_at t s : word_of t = ident s -> type_name t = type_name (of_word (ident s)).
Proof. intros W. now rewrite type_word, W. Qed.
Lemma bits_len ws b : bit_read b ws -> (2 < length ws)%nat.
Proof. destruct 1; cbn; lia. Qed.
Lemma crcdecs_len ds ws : several crcdec_read ds ws -> (length ds <= length ws)%nat.
Proof. induction 1 as [|d l ws wr R1 R IH]; [auto|]. rewrite app_length. destruct R1; cbn [length deco_words app] in *; lia. Qed.
Lemma crcdecs_at ds ws : several crcdec_read ds ws -> match ws with [] => True | w :: _ => fst w = TAt end.
Proof. destruct 1 as [|d l ws wr R1 R]; [auto|]. destruct R1; reflexivity. Qed.
Lemma crcdecs_plain ds ws : several crcdec_read ds ws -> Forall plain_word ws.
Proof. induction 1 as [|d l ws wr R1 R IH]; auto. apply Forall_app. split; [|exact IH]. destruct R1; repeat constructor; discriminate. Qed.
Lemma bit_plain b ws : bit_read b ws -> Forall plain_word ws.
Proof. destruct 1; repeat constructor; discriminate. Qed.
Lemma several_bits_plain l ws : several bit_read l ws -> Forall plain_word ws.
Proof. induction 1 as [|? ? ? ? R]; auto. apply Forall_app. split; auto. eapply bit_plain; eauto. Qed.
Lemma numdecs_len dbl ds ws : several (numdec_read dbl) ds ws -> (length ds <= length ws)%nat.
Proof. induction 1 as [|d l ws wr R1 R IH]; [auto|]. rewrite app_length. destruct R1; cbn [length deco_words app] in *; lia. Qed.
Lemma numdecs_at dbl ds ws : several (numdec_read dbl) ds ws -> match ws with [] => True | w :: _ => fst w = TAt end.
Proof. destruct 1 as [|d l ws wr R1 R]; [auto|]. destruct R1; reflexivity. Qed.
Lemma numdecs_plain dbl ds ws : several (numdec_read dbl) ds ws -> Forall plain_word ws.
Proof. induction 1 as [|d l ws wr R1 R IH]; auto. apply Forall_app. split; [|exact IH]. destruct R1; repeat constructor; discriminate. Qed.
Lemma part_plain dbl env p ws : part_read dbl env p ws -> Forall plain_word ws.
Proof.
  intros [m w R|l w R|ds n w ty s R K I|ds n w ty s R K I]; [eapply member_plain; eauto|eapply several_bits_plain; eauto| |].
  - apply Forall_app. split; [eapply crcdecs_plain; eauto|repeat constructor; discriminate].
  - apply Forall_app. split; [eapply numdecs_plain; eauto|repeat constructor; discriminate].
Qed.
Lemma parts_plain dbl env ps ws : several (part_read dbl env) ps ws -> Forall plain_word ws.
Proof. induction 1 as [|? ? ? ? R]; auto. apply Forall_app. split; auto. eapply part_plain; eauto. Qed.

Lemma le4_bytes v : le4 v = bytes_of LE 4 v.
Proof. unfold le4. cbn [bytes_of le_bytes]. rewrite !N.div_div by lia. reflexivity. Qed.

Section Parts.
  Variable U : list (list N).
  Hypothesis UL : lenN U <= 65536.
  Hypothesis UT : Forall text U.
  Lemma single_run E env u ws : part_read (e_strtod E) env u ws -> single u -> forall fuel ts p y x pv o T t r,
    map word_of ts = ws -> y :: x = ts ++ t :: r -> Forall plain (ts ++ [t]) -> (length ws <= S fuel)%nat ->
    p_err p = false -> p_bitmode p = false -> plain_types p -> p_enums p = [] -> env_ok env p T ->
    (forall n, In n (own_names u) -> ~ In n (p_fields p)) -> Forall text (p_fields p) -> stage U T ->
    (forall z, In z (own_names u ++ part_names u) -> In z U /\ lenN z <= 255) ->
    exists T', parse_field E (S fuel) (going p y x pv o T) =
      POk tt (going (set_struct (p_sname p) (p_fields p ++ own_names u) p) t r (last ts pv) (o ++ sized (index_of T') (part_sym u)) T') /\
      stage U T' /\ extends T T' /\ (forall z, In z (sym_refs (part_sym u)) -> In z T').
  Proof.
    intros R SG fuel ts p y x pv o T t r M X P L ER BM PS PE KE NI FT ST NM. pose proof (proj1 (proj2 ST)) as TT.
    destruct R as [m ws R|l ws R|ds n ws ty s R KW IT|ds n ws ty s R KW IT].
    - cbn [own_names part_names part_sym] in *. eapply (member_run U UL UT E env m ws R); eauto.
      + apply NI. now left.
      + intros z I. apply NM. apply in_or_app. now right.
    - destruct l as [|b [|? ?]]; try contradiction. inversion R as [|? ? w1 w2 R1 R2 E1 E2]. inversion R2; subst w2. rewrite app_nil_r in E2. subst w1. clear R R2 E1.
      cbn [own_names part_names part_sym flat_map map] in *. rewrite !app_nil_r in *.
      destruct fuel as [|fuel]; [apply bits_len in R1; lia|].
      destruct R1 as [ty s sg w n d IT IB LT WB|w d LT WB| |b d LT].
      + cbn [bit_names] in *. destruct (NM n) as (NU & _); [left; reflexivity|]. destruct (stage_add U UL UT T _ ST NU) as (S1 & L1 & X1 & I1).
        assert (KY : tk y = TIdentifier) by (destruct ts as [|z ts]; [discriminate M|]; injection X as -> _; apply cons_inv in M as (W & _); exact (word_kind _ _ _ W)).
        rewrite enter_field by auto. rewrite (bind_ok (decorators E (S fuel) deco0) _ _ deco0 (going p y x pv o T)) by (cbn [decorators]; rewrite bind_at, is_kind_false by congruence; reflexivity).
        destruct (typed_run E deco0 ty s n (Some w) [sign TColon ":"; (TNumber, d)] ltac:(repeat split) IT ltac:(exists d; repeat split; auto; lia) ts p y x pv o T t r M X P PS PE (NI n ltac:(now left)) FT TT L1) as (semi & pv' & KS & EL & WY & RUN).
        rewrite RUN. exists (table1 T n). split; [|split; [exact S1|split; [exact X1|]]].
        * unfold basic_field. rewrite bind_bind, bind_get. set (g := going _ semi (t :: r) pv' _ _). change (p_bitmode g) with (p_bitmode p). rewrite BM. cbv zeta. cbn [andb].
          destruct (N.ltb_spec 0 w) as [_|?]; [|lia]. rewrite (type_word_at _ _ WY). destruct (type_facts _ _ IT) as (-> & _).
          assert (EO : (match ty with 0x10 | 0x11 | 0x12 | 0x13 => Some 0x20 | 0x14 | 0x15 | 0x16 | 0x17 => Some 0x21 | 0x1A => Some 0x22 | _ => None end) = Some (if sg then 0x21 else 0x20)).
          { destruct sg; cbn [bit_types In] in IB; repeat (destruct IB as [<-|IB]; [reflexivity|]); destruct IB. }
          rewrite EO. cbv iota. unfold g. rewrite bind_bind, bind_emit. unfold add_bits. unfold pbind at 1 2. cbn [going set_tok set_out set_strs p_bitmode set_struct]. rewrite BM. cbn [andb].
          unfold ret at 1. cbv iota beta. change (when true ?m) with m. change (if d_be deco0 then [2] else []) with (@nil N). rewrite app_nil_r.
          rewrite bind_con; [|exact KS|apply Forall_app in P as (_ & Q); exact (Forall_inv Q)].
          cbn [d_be deco0 when]. unfold ret. rewrite EL. destruct sg; reflexivity.
        * intros z I. destruct sg; destruct I as [<-|[]]; exact I1.
      + unfold deco_words, in_parens in M. cbn [app] in M. repeat one_token. cbn [app] in X, P. injection X as -> ->. cbn [length] in L.
        rewrite enter_field by (auto; left; exact (word_kind _ _ _ W)). destruct fuel as [|fuel]; [cbn in L; lia|].
        exists T. split; [|split; [exact ST|split; [apply extends_refl|intros z []]]].
        assert (PP : plain t1 /\ plain t2 /\ plain t3 /\ plain t4 /\ plain t5 /\ plain t) by (split_plain; auto 10). destruct PP as (P1 & P2 & P3 & P4 & P5 & P6).
        cbn [decorators]. rewrite bind_bind, bind_at, is_kind_true by exact (word_kind _ _ _ W). rewrite bind_bind, bind_adv by auto. rewrite bind_bind. unfold decorator.
        rewrite bind_bind, bind_cur, bind_bind, bind_con; [|exact (word_kind _ _ _ W0)|auto]. rewrite !(keyword_word t1), W0. change (TIdentifier, chars ?w) with (ident w). keywords.
        rewrite bind_bind, bind_con; [|exact (word_kind _ _ _ W1)|auto]. unfold deco_args. rewrite !(keyword_word t1), W0. change (TIdentifier, chars ?w) with (ident w). keywords.
        rewrite bind_bind, bind_bind, bind_num; [|exact (word_kind _ _ _ W2)|auto]. rewrite bind_bind, bind_emit. rewrite bind_bind. unfold add_pad, upd_p. unfold pbind at 1.
        match goal with |- context [if p_bitmode ?q && _ then _ else _] => change (p_bitmode q) with (p_bitmode p) end. rewrite BM. cbn [andb].
        rewrite bind_ret, bind_bind, bind_con; [|exact (word_kind _ _ _ W3)|auto]. rewrite bind_ret. rewrite bind_bind, bind_at, is_kind_false by (rewrite (word_kind _ _ _ W4); discriminate). rewrite bind_ret.
        unfold field_rest. rewrite !bind_at, is_kind_true by exact (word_kind _ _ _ W4). cbn [with_alone d_alone orb andb when]. rewrite advance_going by auto.
        rewrite set_same. f_equal. f_equal. rewrite (word_text _ _ _ W2), (u32_of _ _ LT) by lia. rewrite N.mod_small by lia. reflexivity.
      + unfold deco_words, in_parens in M. cbn [app] in M. repeat one_token. cbn [app] in X, P. injection X as -> ->. cbn [length] in L.
        rewrite enter_field by (auto; left; exact (word_kind _ _ _ W)). destruct fuel as [|fuel]; [cbn in L; lia|].
        exists T. split; [|split; [exact ST|split; [apply extends_refl|intros z []]]].
        assert (PP : plain t1 /\ plain t2 /\ plain t) by (split_plain; auto 10). destruct PP as (P1 & P2 & P3).
        cbn [decorators]. rewrite bind_bind, bind_at, is_kind_true by exact (word_kind _ _ _ W). rewrite bind_bind, bind_adv by auto. rewrite bind_bind. unfold decorator.
        rewrite bind_bind, bind_cur, bind_bind, bind_con; [|exact (word_kind _ _ _ W0)|auto]. rewrite !(keyword_word t1), W0. change (TIdentifier, chars ?w) with (ident w). keywords.
        rewrite bind_bind, bind_at, is_kind_false by (rewrite (word_kind _ _ _ W1); discriminate). rewrite bind_bind, bind_ret. rewrite bind_bind, bind_emit. rewrite bind_bind. unfold zero_bits, upd_p. unfold pbind at 1.
        match goal with |- context [if p_bitmode ?q && _ then _ else _] => change (p_bitmode q) with (p_bitmode p) end. rewrite BM. cbn [andb].
        rewrite bind_ret. rewrite bind_bind, bind_at, is_kind_false by (rewrite (word_kind _ _ _ W1); discriminate). rewrite bind_ret.
        unfold field_rest. rewrite !bind_at, is_kind_true by exact (word_kind _ _ _ W1). cbn [with_alone d_alone orb andb when]. rewrite advance_going by auto.
        rewrite set_same. reflexivity.
      + unfold deco_words, in_parens in M. cbn [app] in M. repeat one_token. cbn [app] in X, P. injection X as -> ->. cbn [length] in L.
        rewrite enter_field by (auto; left; exact (word_kind _ _ _ W)). destruct fuel as [|fuel]; [cbn in L; lia|].
        exists T. split; [|split; [exact ST|split; [apply extends_refl|intros z []]]].
        assert (PP : plain t1 /\ plain t2 /\ plain t3 /\ plain t4 /\ plain t5 /\ plain t) by (split_plain; auto 10). destruct PP as (P1 & P2 & P3 & P4 & P5 & P6).
        cbn [decorators]. rewrite bind_bind, bind_at, is_kind_true by exact (word_kind _ _ _ W). rewrite bind_bind, bind_adv by auto. rewrite bind_bind. unfold decorator.
        rewrite bind_bind, bind_cur, bind_bind, bind_con; [|exact (word_kind _ _ _ W0)|auto]. rewrite !(keyword_word t1), W0. change (TIdentifier, chars ?w) with (ident w). keywords.
        rewrite bind_bind, bind_at, is_kind_true by exact (word_kind _ _ _ W1). rewrite bind_bind, bind_bind, bind_adv by auto. rewrite bind_bind, bind_num; [|exact (word_kind _ _ _ W2)|auto].
        rewrite (word_text _ _ _ W2), (u32_of _ _ LT) by (destruct b; lia). rewrite N.mod_small by (destruct b; lia). replace (1 <? (if b then 1 else 0)) with false by (destruct b; reflexivity).
        rewrite bind_bind, bind_when. rewrite bind_bind, bind_con; [|exact (word_kind _ _ _ W3)|auto]. rewrite bind_ret. rewrite bind_bind, bind_emit. rewrite bind_bind. unfold zero_bits, upd_p. unfold pbind at 1.
        match goal with |- context [if p_bitmode ?q && _ then _ else _] => change (p_bitmode q) with (p_bitmode p) end. rewrite BM. cbn [andb].
        rewrite bind_ret. rewrite bind_bind, bind_at, is_kind_false by (rewrite (word_kind _ _ _ W4); discriminate). rewrite bind_ret.
        unfold field_rest. rewrite !bind_at, is_kind_true by exact (word_kind _ _ _ W4). cbn [with_alone d_alone orb andb when]. rewrite advance_going by auto.
        rewrite set_same. reflexivity.
    - cbn [own_names part_names part_sym] in *. destruct (NM n) as (NU & _); [left; reflexivity|]. destruct (stage_add U UL UT T _ ST NU) as (S1 & L1 & X1 & I1).
      exists (table1 T n). split; [|split; [exact S1|split; [exact X1|intros z I; apply refs_marked in I; destruct I]]].
      apply map_eq_app in M as (t1 & t2 & -> & M1 & M2). destruct t2 as [|h t2]; [discriminate M2|].
      assert (KH : tk h = TIdentifier) by (cbn [map] in M2; apply cons_inv in M2 as (W & _); exact (word_kind _ _ _ W)).
      assert (KY : tk y = TAt \/ tk y = TIdentifier).
      { destruct t1 as [|z t1]; [injection X as -> _; auto|]. injection X as -> _. left. pose proof (crcdecs_at _ _ R) as K. rewrite <- M1 in K. exact K. }
      rewrite app_length in L. cbn [length] in L. pose proof (crcdecs_len _ _ R) as LD. destruct fuel as [|fuel]; [lia|]. rewrite enter_field by auto.
      rewrite (bind_ok (decorators E (S fuel) deco0) _ _ (deco_of (crc_of ds)) (going p h (t2 ++ t :: r) (last t1 pv) o T)).
      2:{ rewrite <- deco_of_0. apply (crcdecs_run E ds ws R crcset0 (S fuel) t1); auto; try (rewrite KH; discriminate); try lia.
          - now rewrite X, <- app_assoc.
          - rewrite <- app_assoc in P. apply Forall_app in P as (A & Q). apply Forall_app. split; auto. constructor; auto. exact (Forall_inv Q). }
      set (c := crc_of ds) in *.
      assert (PH : Forall plain ((h :: t2) ++ [t])) by (rewrite <- app_assoc in P; apply Forall_app in P; apply P).
      destruct (typed_run E (deco_of c) _ s n None [] ltac:(repeat split) IT eq_refl (h :: t2) p h (t2 ++ t :: r) (last t1 pv) o T t r M2 eq_refl PH PS PE (NI n ltac:(now left)) FT TT L1) as (semi & pv' & KS & EL & WY & RUN).
      rewrite RUN. unfold basic_field. rewrite bind_bind, bind_get. set (g := going _ semi (t :: r) pv' _ _). change (p_bitmode g) with (p_bitmode p). rewrite BM. cbv zeta. cbn [andb].
      change (0 <? 0) with false. cbv iota. rewrite (type_word_at _ _ WY). destruct (type_facts _ _ IT) as (-> & _).
      assert (PT : plain t) by (apply Forall_app in PH as (_ & Q); exact (Forall_inv Q)).
      change (d_crc (deco_of c)) with (match k_wide c with None => None | Some true => Some 32 | Some false => Some 16 end). rewrite KW.
      assert (LS : last (t1 ++ h :: t2) pv = semi) by (rewrite last_two; exact EL).
      destruct ty; cbv iota.
      + change (0x12 =? 0x12) with true. cbn [negb]. rewrite !bind_bind, bind_when. unfold g. rewrite bind_emit, bind_ret. change (when true ?m) with m. cbv beta. rewrite bind_con by auto. rewrite LS.
        change (d_be (deco_of c)) with (k_big c). destruct c as [kb kw kp ki kx kri kro]. cbn [k_wide k_big] in *. subst kw. unfold check_sym, check_instr, crc_width. cbn [k_big k_wide k_poly k_init k_xor k_in k_out opcode args ins]. change (N.to_nat 4) with 4%nat. rewrite <- !le4_bytes.
        set (a := le4 kp ++ le4 ki ++ le4 kx ++ [(if kri then 1 else 0) + (if kro then 2 else 0)]).
        match goal with |- context [[73] ++ ?q] => change ([73] ++ q) with (73 :: a) end.
        destruct kb; cbn [when smarked]; [rewrite emit_going|unfold ret].
        * rewrite !sized_app, !sized_one. cbn [map flat_map app]. rewrite <- !app_assoc. cbn [app]. rewrite ?app_nil_r. reflexivity.
        * rewrite ?sized_one. cbn [map flat_map app]. rewrite ?app_nil_r. reflexivity.
      + change (0x11 =? 0x11) with true. cbn [negb]. rewrite !bind_bind, bind_when. unfold g. rewrite bind_emit, bind_ret. change (when true ?m) with m. cbv beta. rewrite bind_con by auto. rewrite LS.
        change (d_be (deco_of c)) with (k_big c). destruct c as [kb kw kp ki kx kri kro]. cbn [k_wide k_big] in *. subst kw. unfold check_sym, check_instr, crc_width. cbn [k_big k_wide k_poly k_init k_xor k_in k_out opcode args ins]. change (N.to_nat 2) with 2%nat. rewrite <- (le2_bytes kp), <- (le2_bytes ki), <- (le2_bytes kx).
        set (a := le2 kp ++ le2 ki ++ le2 kx ++ [(if kri then 1 else 0) + (if kro then 2 else 0)]).
        match goal with |- context [[68] ++ ?q] => change ([68] ++ q) with (68 :: a) end.
        destruct kb; cbn [when smarked]; [rewrite emit_going|unfold ret].
        * rewrite !sized_app, !sized_one. cbn [map flat_map app]. rewrite <- !app_assoc. cbn [app]. rewrite ?app_nil_r. reflexivity.
        * rewrite ?sized_one. cbn [map flat_map app]. rewrite ?app_nil_r. reflexivity.
    - cbn [own_names part_names part_sym] in *. destruct (NM n) as (NU & _); [left; reflexivity|]. destruct (stage_add U UL UT T _ ST NU) as (S1 & L1 & X1 & I1).
      exists (table1 T n). split; [|split; [exact S1|split; [exact X1|]]].
      2:{ intros z I. pose proof (proj1 (part_refs (Numeric ds ty n) z) I) as [<-|[]]. exact I1. }
      apply map_eq_app in M as (t1 & t2 & -> & M1 & M2). destruct t2 as [|h t2]; [discriminate M2|].
      assert (KH : tk h = TIdentifier) by (cbn [map] in M2; apply cons_inv in M2 as (W & _); exact (word_kind _ _ _ W)).
      assert (KY : tk y = TAt \/ tk y = TIdentifier).
      { destruct t1 as [|z t1]; [injection X as -> _; auto|]. injection X as -> _. left. pose proof (numdecs_at _ _ _ R) as K. rewrite <- M1 in K. exact K. }
      rewrite app_length in L. cbn [length] in L. pose proof (numdecs_len _ _ _ R) as LD. destruct fuel as [|fuel]; [lia|]. rewrite enter_field by auto.
      pose proof (num_deco_all ds) as ND. set (d := fold_left apply_num ds deco0) in *. set (c := num_of ds) in *.
      rewrite (bind_ok (decorators E (S fuel) deco0) _ _ d (going p h (t2 ++ t :: r) (last t1 pv) (o ++ optional_code ds) T)).
      2:{ apply (numdecs_run E ds ws R deco0 (S fuel) t1); auto; try (rewrite KH; discriminate); try lia.
          - now rewrite X, <- app_assoc.
          - rewrite <- app_assoc in P. apply Forall_app in P as (A & Q). apply Forall_app. split; auto. constructor; auto. exact (Forall_inv Q). }
      assert (PH : Forall plain ((h :: t2) ++ [t])) by (rewrite <- app_assoc in P; apply Forall_app in P; apply P).
      destruct (typed_gen E d _ s n None [] (bare_num _ _ ND) IT eq_refl (h :: t2) p h (t2 ++ t :: r) (last t1 pv) (o ++ optional_code ds) T t r M2 eq_refl PH PS PE (NI n ltac:(now left)) FT TT L1) as (semi & pv' & KS & EL & WY & RUN).
      rewrite RUN. unfold basic_field. rewrite bind_bind, bind_get. set (g := going _ semi (t :: r) pv' _ _). change (p_bitmode g) with (p_bitmode p). rewrite BM. cbv zeta. cbn [andb].
      change (0 <? 0) with false. cbv iota. rewrite (type_word_at _ _ WY). destruct (type_facts _ _ IT) as (-> & _).
      assert (PT : plain t) by (apply Forall_app in PH as (_ & Q); exact (Forall_inv Q)).
      pose proof ND as ((_ & _ & _ & DK & _ & DR & DC & DX) & DB & _ & _).
      assert (LS : last (t1 ++ h :: t2) pv = semi) by (rewrite last_two; exact EL).

      rewrite DC, DX, DR. cbv iota. unfold g. rewrite (conv_code c d (index_of (table1 T n)) ND). rewrite !bind_bind, bind_emit, bind_ret, bind_ret. change (when true ?m) with m. cbv beta. rewrite bind_con by auto. rewrite LS.
      assert (OC : optional_code ds = sized (index_of (table1 T n)) (map (fun _ => (0x4A, [], [])) (filter is_optional ds))).
      { unfold optional_code. induction (filter is_optional ds) as [|a l IH]; [reflexivity|]. cbn [map]. rewrite IH. reflexivity. }
      rewrite !sized_app, <- OC. rewrite DB. unfold smarked. destruct (u_big c); cbn [when]; [rewrite emit_going|unfold ret].
      + rewrite !sized_app, !sized_one. cbn [map flat_map app]. rewrite <- !app_assoc. cbn [app]. rewrite ?app_nil_r. reflexivity.
      + rewrite ?sized_one. cbn [map flat_map app]. rewrite <- !app_assoc. rewrite ?app_nil_r. reflexivity.
  Qed.
End Parts.
