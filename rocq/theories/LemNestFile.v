(** Compiling schemas with structures: structure definitions, the packet and the file. *)
From Coq Require Import Strings.String ZifyBool ZifyNat ZifyN.
From Verif Require Import Base SpecBytes SpecVM ModelVM ModelImage ModelText SpecText ModelNames ModelParse ModelSchema SpecParse LemBase LemStr LemText
  LemParse SpecNames LemNames SpecPacket LemPacket SpecMessage LemMono SpecNest LemNest.

Lemma members_plain_name m : In (member_name m) (member_names [] m).
Proof. destruct m; left; reflexivity. Qed.
Lemma own_names b n : In n (map member_name b) -> In n (flat_map (member_names []) b).
Proof. intros I. apply in_map_iff in I as (m & <- & I). apply in_flat_map. exists m. split; [exact I|apply members_plain_name]. Qed.
Lemma member_head env m ws : member_read env m ws -> exists w r, ws = w :: r /\ (fst w = TAt \/ fst w = TIdentifier).
Proof.
  destruct 1 as [f ws FR|os o x n b s w OR IE XR]; [eapply field_head; eauto|]. pose proof (order_at _ _ _ OR) as K.
  destruct o as [|q o]; cbn [app]; eauto 6.
Qed.
Lemma find_missing l w : ~ In w (map fst l) -> find_struct l w = None.
Proof.
  unfold find_struct. induction l as [|[s c] l IH]; intros NI; [reflexivity|]. cbn [find fst]. unfold same_text at 1.
  destruct list_eq_dec as [E|E]; [exfalso; apply NI; left; exact E|]. apply IH. intros I. apply NI. now right.
Qed.
Lemma find_first l s c s' c' : find_struct l s = Some c -> find_struct (l ++ [(s', c')]) s = Some c.
Proof.
  unfold find_struct. induction l as [|[s0 c0] l IH]; intros F; [discriminate|]. cbn [find app fst] in *. destruct (same_text s0 s); [exact F|]. now apply IH.
Qed.
Lemma find_last l s c : ~ In s (map fst l) -> find_struct (l ++ [(s, c)]) s = Some c.
Proof.
  unfold find_struct. induction l as [|[s0 c0] l IH]; intros NI; cbn [find app fst].
  - unfold same_text. destruct list_eq_dec; [reflexivity|contradiction].
  - unfold same_text at 1. destruct list_eq_dec as [E|E]; [exfalso; apply NI; left; exact E|]. apply IH. intros I. apply NI. now right.
Qed.

Lemma consume_going c p a b r pv o s : tk a = c -> plain b -> consume c (going p a (b :: r) pv o s) = POk tt (going p b r a o s).
Proof. intros A P. unfold consume. rewrite bind_at, is_kind_true by auto. now apply advance_going. Qed.

Section File.
  Variable U : list (list N).
  Hypothesis UL : lenN U <= 65536.
  Hypothesis UT : Forall text U.
  Definition known (l : list (list N)) : Prop := forall z, In z l -> In z U /\ lenN z <= 255.

  Lemma members_run E env b ws : members_read env b ws -> forall fuel ts p y x pv o T t r,
    map word_of ts = ws -> y :: x = ts ++ t :: r -> Forall plain (ts ++ [t]) -> tk t = TRbrace -> (length ts < fuel)%nat ->
    p_err p = false -> p_bitmode p = false -> plain_types p -> p_enums p = [] -> env_ok env p T -> NoDup (p_fields p ++ map member_name b) ->
    Forall text (p_fields p ++ map member_name b) -> stage U T -> known (flat_map (member_names []) b) ->
    exists T', block_loop E fuel (going p y x pv o T) =
      POk tt (going (set_struct (p_sname p) (p_fields p ++ map member_name b) p) t r (last ts pv) (o ++ sized (index_of T') (members_sym [] b)) T') /\
      stage U T' /\ extends T T' /\ (forall z, In z (sym_refs (members_sym [] b)) -> In z T').
  Proof.
    induction 1 as [|m b ws wr MR R IH]; intros fuel ts p y x pv o T t r M X P KT L ER BM PS PE KE ND FT ST NM; (destruct fuel as [|fuel]; [lia|]).
    - destruct ts; [|discriminate]. injection X as -> ->. exists T. split; [|split; [exact ST|split; [apply extends_refl|intros z []]]].
      cbn [block_loop]. rewrite bind_cur. rewrite is_kind_true by auto. cbn. rewrite !app_nil_r. destruct p. reflexivity.
    - apply map_eq_app in M as (t1 & t2 & -> & M1 & M2).
      destruct (member_head _ _ _ MR) as (w & wt & EW & KW). rewrite app_length in L.
      assert (KY : tk y = TAt \/ tk y = TIdentifier).
      { destruct t1 as [|z t1]; [rewrite EW in M1; discriminate M1|]. injection X as -> _. rewrite EW in M1. apply cons_inv in M1 as (<- & _). exact KW. }
      assert (L1 : (0 < length t1)%nat) by (destruct t1; [rewrite EW in M1; discriminate M1|cbn; lia]).
      cbn [block_loop]. rewrite bind_cur, bind_get. change (p_err (going p y x pv o T)) with (p_err p). rewrite ER.
      rewrite !is_kind_false by (destruct KY as [-> | ->]; discriminate). cbn [orb]. cbn [map] in ND, FT |- *.
      assert (FTP : Forall text (p_fields p)) by (apply Forall_app in FT as (FT & _); exact FT).
      assert (NI : ~ In (member_name m) (p_fields p)) by (intros I; apply NoDup_remove_2 in ND; apply ND; apply in_or_app; auto).
      assert (exists h hs, t2 ++ t :: r = h :: hs /\ plain h /\ Forall plain (t1 ++ [h])) as (h & hs & EH & PH & PT1).
      { rewrite <- app_assoc in P. apply Forall_app in P as (A & B).
        destruct t2 as [|h hs]; [exists t, r|exists h, (hs ++ t :: r)]; (split; [reflexivity|]); pose proof (Forall_inv B) as PH; (split; [exact PH|]);
        apply Forall_app; split; auto. }
      assert (LW : length ws = length t1) by (rewrite <- M1; now rewrite map_length).
      destruct fuel as [|fuel]; [lia|].
      destruct (member_run U UL UT E env m ws MR fuel t1 p y x pv o T h hs M1) as (T1 & E1 & S1 & X1 & I1); auto.
      { now rewrite X, <- app_assoc, EH. }
      { lia. }
      { intros z I. apply NM. cbn [flat_map]. apply in_or_app. now left. }
      set (p1 := set_struct (p_sname p) (p_fields p ++ [member_name m]) p) in *.
      destruct (IH (S fuel) t2 p1 h hs (last t1 pv) (o ++ sized (index_of T1) (member_sym [] m)) T1 t r M2 (eq_sym EH)) as (T2 & E2 & S2 & X2 & I2); auto.
      { rewrite <- app_assoc in P. apply Forall_app in P. apply P. }
      { lia. }
      { exact (env_more env p T T1 KE X1). }
      { cbn [p1 add_site p_fields set_struct]. rewrite <- app_assoc. exact ND. }
      { cbn [p1 add_site p_fields set_struct]. rewrite <- app_assoc. exact FT. }
      { intros z I. apply NM. cbn [flat_map]. apply in_or_app. now right. }
      exists T2. split.
      + rewrite (bind_ok (parse_field E (S fuel)) _ _ tt _ E1), E2. f_equal. cbn [p1 add_site p_sname p_fields set_struct]. rewrite <- !app_assoc. cbn [app]. rewrite last_two.
        change (members_sym [] (m :: b)) with (member_sym [] m ++ members_sym [] b). rewrite sized_app. rewrite (extends_sized T1 T2 (member_sym [] m) X2 I1). reflexivity.
      + split; [exact S2|]. split; [eapply extends_trans; eauto|]. intros z I. change (members_sym [] (m :: b)) with (member_sym [] m ++ members_sym [] b) in I.
        rewrite refs_app in I. apply in_app_iff in I as [I|I]; [eapply extends_in; [exact X2|]; now apply I1|now apply I2].
  Qed.

  (** ** Structure definitions *)
  Definition ready (env : list structure) (p : pst) (T : list (list N)) : Prop :=
    (p_err p = false /\ p_bitmode p = false /\ p_unaligned p = false /\ p_enums p = [] /\ p_sname p = None /\ p_packets p = 0) /\
    map fst (p_structs p) = map fst env /\ (forall s, In s (map fst env) -> ~ In s type_names) /\ env_ok env p T.
  Lemma ready_types env p T : ready env p T -> plain_types p.
  Proof. intros (_ & ES & NT & _) w I. apply find_missing. rewrite ES. intros J. exact (NT w J I). Qed.
  Definition defined (p : pst) (s c : list N) : pst :=
    set_bits (p_unaligned p) (p_bitmode p) (p_bits p) (p_bits_valid p) (set_struct (p_sname p) [] (set_defs (p_structs p ++ [(s, c)]) (p_enums p) p)).
  Lemma own_text b : known (flat_map (member_names []) b) -> Forall text (map member_name b).
  Proof. intros K. apply Forall_forall. intros z I. apply (proj1 (Forall_forall _ _) UT). now apply K, own_names. Qed.
  Lemma struct_run E env s b ws : members_read env b ws -> Forall member_wf b -> forall fuel ts p nt lb rb t r pv o T,
    map word_of ts = ws -> word_of nt = (TIdentifier, s) -> tk lb = TLbrace -> tk rb = TRbrace -> plain t -> Forall plain ts -> (length ts + 1 < fuel)%nat ->
    ready env p T -> ~ In s (map fst env) -> ~ In s type_names -> NoDup (map member_name b) -> stage U T -> known (flat_map (member_names []) b) ->
    exists p' T', parse_struct E fuel (going p nt (lb :: ts ++ rb :: t :: r) pv o T) = POk tt (going p' t r rb o T') /\
      ready (env ++ [(s, b)]) p' T' /\ stage U T' /\ extends T T' /\ p_depth p' = p_depth p.
  Proof.
    intros R WF fuel ts p nt lb rb t r pv o T M WN KL KR PT P L RD NI NT ND ST NM.
    pose proof (ready_types _ _ _ RD) as PTY. destruct RD as ((ER & BM & UA & PE & SN & PK) & ES & TN & KE).
    assert (PB : plain lb) by (split; congruence). assert (PR : plain rb) by (split; congruence).
    assert (exists z zs, ts ++ rb :: t :: r = z :: zs /\ plain z) as (z & zs & EZ & PZ).
    { destruct ts as [|z zs]; [exists rb, (t :: r)|exists z, (zs ++ rb :: t :: r)]; (split; [reflexivity|]); auto. exact (Forall_inv P). }
    unfold parse_struct. rewrite bind_cur, bind_con; [|exact (word_kind _ _ _ WN)|auto]. rewrite (word_text _ _ _ WN).
    set (g := going p lb (ts ++ rb :: t :: r) nt o T). rewrite bind_get. change (p_structs g) with (p_structs p). change (p_enums g) with (p_enums p).
    rewrite find_missing by (now rewrite ES). rewrite PE. cbn [find_enum find some orb]. rewrite bind_when. rewrite bind_get.
    unfold upd_p at 1. unfold pbind at 1. change (p_unaligned g) with (p_unaligned p). rewrite UA. rewrite bind_when.
    set (p1 := add_site false nt (set_struct (Some s) [] (set_defs (p_structs p ++ [(s, [])]) (p_enums p) p))).
    match goal with |- context [pbind (parse_block E fuel) _ ?q] => change q with (going p1 lb (ts ++ rb :: t :: r) nt [] T) end.
    destruct (members_run E env b ws R (pred fuel) ts p1 z zs lb [] T rb (t :: r) M) as (T' & E1 & S1 & X1 & I1); auto.
    { apply Forall_app. auto. }
    { lia. }
    { intros w I. apply find_missing. cbn [p1 add_site p_structs set_struct set_defs]. rewrite map_app, ES. intros J. apply in_app_iff in J as [J|[J|[]]]; [exact (TN w J I)|]. cbn in J. subst w. now apply NT. }
    { intros s' b' I. destruct (KE s' b' I) as (A & B & C & T0 & D & F & G). split; [exact A|]. cbn [p1 add_site p_sname p_structs set_struct set_defs].
      split; [intros EQ; injection EQ as ->; apply NI; apply in_map_iff; exists (s', b'); auto|]. split; [exact C|]. exists T0. split; [exact D|]. split; [|exact G]. now apply find_first. }
    { cbn [p1 add_site p_fields set_struct app]. now apply own_text. }
    set (p2 := set_struct (p_sname p1) (p_fields p1 ++ map member_name b) p1) in *.
    assert (PBK : parse_block E fuel (going p1 lb (ts ++ rb :: t :: r) nt [] T) =
      POk tt (going p2 t r rb (sized (index_of T') (members_sym [] b)) T')).
    { destruct fuel as [|fuel]; [lia|]. cbn [parse_block]. rewrite EZ, bind_con by auto. cbn [pred] in E1. rewrite (bind_ok _ _ _ _ _ E1).
      apply consume_going; auto. }
    rewrite (bind_ok _ _ _ _ _ PBK). rewrite bind_get.
    change (p_bitmode (going p2 t r rb (sized (index_of T') (members_sym [] b)) T')) with (p_bitmode p). change (p_bitmode g) with (p_bitmode p). rewrite BM. cbn [andb negb]. rewrite bind_when.
    exists (add_site false nt (defined p s (sized (index_of T') (members_sym [] b)))), T'. split; [unfold upd_p, defined; cbn; rewrite ?BM, ?PE; reflexivity|]. split; [|split; [exact S1|split; [exact X1|reflexivity]]].
    split; [repeat split; assumption|]. cbn [add_site defined p_structs set_bits set_struct set_defs]. split; [now rewrite !map_app, ES|]. split.
    - intros w I. rewrite map_app in I. apply in_app_iff in I as [I|[<-|[]]]; [now apply TN|exact NT].
    - intros s' b' I. apply in_app_iff in I as [I|[EQ|[]]].
      + destruct (KE s' b' I) as (A & B & C & T0 & D & F & G). split; [exact A|]. split; [exact B|]. split; [exact C|]. exists T0. split; [eapply extends_trans; eauto|].
        split; [|exact G]. cbn [add_site defined p_structs set_bits set_struct set_defs]. now apply find_first.
      + injection EQ as <- <-. split; [exact NT|]. cbn [add_site defined p_sname p_structs set_bits set_struct set_defs]. split; [now rewrite SN|]. split; [exact WF|]. exists T'.
        split; [apply extends_refl|]. split; [|exact I1]. apply find_last. now rewrite ES.
  Qed.

  (** ** Definitions one after another *)
  Lemma top_go E f p a x pv o T : p_err p = false -> tk a = TStruct \/ tk a = TSemicolon -> forall K,
    (match tk a with TStruct => (advance ;; parse_struct E (S f)) (going p a x pv o T) | _ => advance (going p a x pv o T) end) = K ->
    top_level E (S (S f)) (going p a x pv o T) = match K with POk _ q => top_level E (S f) q | PUb u => PUb u | PFuel => PFuel end.
  Proof.
    intros ER KA K <-. remember (S f) as f1. cbn [top_level]. rewrite bind_cur, bind_get. change (p_err (going p a x pv o T)) with (p_err p). rewrite ER.
    rewrite !is_kind_false by (destruct KA as [-> | ->]; discriminate). cbn [orb].
    assert (TD : top_decorators E f1 (going p a x pv o T) = POk tt (going p a x pv o T)).
    { subst f1. cbn [top_decorators]. rewrite bind_at, is_kind_false by (destruct KA as [-> | ->]; discriminate). reflexivity. }
    rewrite (bind_ok _ _ _ _ _ TD). rewrite bind_get. change (p_cur (going p a x pv o T)) with a.
    destruct KA as [-> | ->]; unfold pbind at 1; cbv beta; [|destruct (advance (going p a x pv o T)); reflexivity].
    destruct ((advance;; parse_struct E f1) (going p a x pv o T)); reflexivity.
  Qed.
  Lemma extent_word_wf x w : extent_read x w -> extent_wf x.
  Proof. destruct 1 as [| |cw c I]; cbn; auto. cbn in I. repeat (destruct I as [I|I]; [injection I as <- _; auto|]). destruct I. Qed.
  Lemma member_reads_wf env m ws : member_read env m ws -> (forall s b, In (s, b) env -> Forall member_wf b) -> member_wf m.
  Proof.
    intros [f w (os & a & b & _ & CR & _)|os o x n b s w OR IE XR] K; cbn [member_wf]; [eapply read_ok; eauto|].
    split; [eapply extent_word_wf; eauto|]. apply every_forall. eauto.
  Qed.
  Lemma members_reads_wf env b ws : members_read env b ws -> (forall s b, In (s, b) env -> Forall member_wf b) -> Forall member_wf b.
  Proof. intros R K. induction R; constructor; auto. eapply member_reads_wf; eauto. Qed.
  Lemma extent_plain x w : extent_read x w -> Forall plain_word w.
  Proof. destruct 1; repeat constructor; discriminate. Qed.
  Lemma member_plain env m ws : member_read env m ws -> Forall plain_word ws.
  Proof.
    intros [f w FR|os o x n b s w OR IE XR]; [now apply field_plain in FR|]. apply orders_plain in OR. apply extent_plain in XR.
    apply Forall_app. split; [exact OR|]. apply Forall_app. split; [repeat constructor; discriminate|]. apply Forall_app. split; [exact XR|repeat constructor; discriminate].
  Qed.
  Lemma members_plain env b ws : members_read env b ws -> Forall plain_word ws.
  Proof. induction 1 as [|? ? ? ? MR]; auto. apply Forall_app. split; auto. eapply member_plain; eauto. Qed.
  Lemma structs_plain env l ws : structs_read env l ws -> Forall plain_word ws.
  Proof.
    induction 1 as [|env s b l ws sc wr MR N1 N2 N3 SC R IH]; auto. apply members_plain in MR.
    apply Forall_app. split; [repeat constructor; discriminate|]. apply Forall_app. split; [exact MR|]. apply Forall_app. split; [repeat constructor; discriminate|].
    apply Forall_app. split; [|exact IH]. destruct SC as [-> | ->]; repeat constructor; discriminate.
  Qed.
  Lemma structs_run E env l ws : structs_read env l ws -> forall fuel ts p y x pv o T t r,
    map word_of ts = ws -> y :: x = ts ++ t :: r -> plain t -> (length ts + 2 < fuel)%nat ->
    ready env p T -> stage U T -> known (flat_map (fun d : structure => flat_map (member_names []) (snd d)) l) ->
    exists fuel' p' pv' T', top_level E fuel (going p y x pv o T) = top_level E fuel' (going p' t r pv' o T') /\ (fuel <= fuel' + length ts)%nat /\
      ready (env ++ l) p' T' /\ stage U T' /\ extends T T' /\ p_depth p' = p_depth p.
  Proof.
    induction 1 as [env|env s b l ws sc wr MR N1 N2 N3 SC R IH]; intros fuel ts p y x pv o T t r M X PT L RD ST NM.
    - destruct ts; [|discriminate]. injection X as -> ->. exists fuel, p, pv, T. rewrite app_nil_r. split; [reflexivity|]. split; [lia|]. split; [exact RD|]. split; [exact ST|]. split; [apply extends_refl|reflexivity].
    - assert (WF : Forall member_wf b) by (eapply members_reads_wf; [exact MR|]; intros s' b' I; exact (proj1 (proj2 (proj2 (proj2 (proj2 (proj2 RD)) s' b' I))))).
      pose proof (members_plain _ _ _ MR) as PM. pose proof (structs_plain _ _ _ R) as PW.
      cbn [app] in M. one_token. one_token. one_token. apply map_eq_app in M as (tb & ts' & -> & MB & M). cbn [app] in M. one_token. rename t0 into kw, t1 into nt, t2 into lb, t3 into rb.
      apply map_eq_app in M as (tc & tr' & -> & MC & M). rewrite <- MB in PM. apply plain_words in PM. rewrite <- M in PW. apply plain_words in PW.
      cbn [app] in X. injection X as -> ->. rewrite <- !app_assoc. cbn [app length] in L. rewrite app_length in L. cbn [length] in L. rewrite app_length in L.
      assert (PN : plain nt) by (split; rewrite (word_kind _ _ _ W0); discriminate).
      assert (PC : Forall plain tc) by (apply plain_words; rewrite MC; destruct SC as [-> | ->]; repeat constructor; discriminate).
      assert (exists z zs, tc ++ tr' ++ t :: r = z :: zs /\ plain z) as (z & zs & EZ & PZ).
      { destruct tc as [|z zs]; [|exists z, (zs ++ tr' ++ t :: r); split; [reflexivity|exact (Forall_inv PC)]].
        destruct tr' as [|z zs]; [exists t, r; auto|exists z, (zs ++ t :: r); split; [reflexivity|exact (Forall_inv PW)]]. }
      cbn [app]. rewrite <- ?app_assoc. rewrite EZ.
      destruct fuel as [|[|fuel]]; [lia|lia|].
      destruct (struct_run E env s b ws MR WF (S fuel) tb p nt lb rb z zs kw o T MB W0 (word_kind _ _ _ W1) (word_kind _ _ _ W2) PZ PM ltac:(lia) RD N1 N2 N3 ST) as (p1 & T1 & E1 & RD1 & S1 & X1 & D1).
      { intros q I. apply NM. cbn [flat_map snd]. apply in_or_app. now left. }
      erewrite (top_go E fuel p kw); [|exact (proj1 (proj1 RD))|left; exact (word_kind _ _ _ W)|].
      2:{ rewrite (word_kind _ _ _ W). rewrite bind_adv by auto. exact E1. }
      cbv iota.
      assert (SEMI : exists fuel1 pv1 z1 zs1, top_level E (S fuel) (going p1 z zs rb o T1) = top_level E fuel1 (going p1 z1 zs1 pv1 o T1) /\ (S fuel <= fuel1 + length tc)%nat /\ z1 :: zs1 = tr' ++ t :: r).
      { destruct SC as [-> | ->]; repeat one_token.
        - exists (S fuel), rb, z, zs. split; [reflexivity|]. split; [lia|]. symmetry. exact EZ.
        - cbn [app] in EZ. injection EZ as <- <-.
          assert (exists z1 zs1, z1 :: zs1 = tr' ++ t :: r /\ plain z1) as (z1 & zs1 & EZ1 & PZ1).
          { destruct tr' as [|z1 zs1]; [exists t, r; auto|exists z1, (zs1 ++ t :: r); split; [reflexivity|exact (Forall_inv PW)]]. }
          destruct fuel as [|fuel]; [cbn [length] in L; lia|]. exists (S fuel), t0, z1, zs1. split; [|split; [cbn [length]; lia|exact EZ1]].
          erewrite (top_go E fuel p1 t0); [|exact (proj1 (proj1 RD1))|right; exact (word_kind _ _ _ W3)|].
          2:{ rewrite (word_kind _ _ _ W3). rewrite <- EZ1. apply advance_going. exact PZ1. }
          reflexivity. }
      destruct SEMI as (fuel1 & pv1 & z1 & zs1 & E2 & L2 & EZ1). rewrite E2.
      destruct (IH fuel1 tr' p1 z1 zs1 pv1 o T1 t r M EZ1 PT ltac:(lia) RD1 S1) as (fuel' & p' & pv' & T' & E3 & L3 & RD3 & S3 & X3 & D3).
      { intros q I. apply NM. cbn [flat_map snd]. apply in_or_app. now right. }
      exists fuel', p', pv', T'. split; [exact E3|]. split; [cbn [length]; rewrite app_length; cbn [length]; rewrite app_length; lia|]. rewrite <- app_assoc in RD3. split; [exact RD3|]. split; [exact S3|].
      split; [eapply extends_trans; eauto|]. congruence.
  Qed.

  (** ** The packet *)
  Lemma nest_packet_run E env b ws : members_read env b ws -> forall fuel ts p nt lb rb e pv o T n,
    map word_of ts = ws -> word_of nt = (TIdentifier, n) -> tk lb = TLbrace -> tk rb = TRbrace -> tk e = TEof ->
    Forall plain ts -> (length ts + 1 < fuel)%nat ->
    p_err p = false -> p_bitmode p = false -> p_enums p = [] -> plain_types p -> env_ok env p T -> find_struct (p_structs p) n = None ->
    NoDup (map member_name b) -> stage U T -> known (flat_map (member_names []) b) -> In n U ->
    exists T', parse_packet E fuel (going p nt (lb :: ts ++ [rb; e]) pv o T) =
      POk tt (going (set_struct (p_sname p) [] p) e [e] rb (o ++ sized (index_of T') ((0x07, [n], []) :: members_sym [] b)) T') /\
      stage U T' /\ In n T' /\ (forall z, In z (sym_refs (members_sym [] b)) -> In z T').
  Proof.
    intros R fuel ts p nt lb rb e pv o T n M WN KL KR KE P L ER BM PE PTY KEN FN ND ST NM NU. unfold parse_packet.
    assert (PB : plain lb) by (split; congruence). assert (PR : plain rb) by (split; congruence).
    assert (exists z zs, ts ++ [rb; e] = z :: zs /\ plain z) as (z & zs & EZ & PZ).
    { destruct ts as [|z zs]; [exists rb, [e]|exists z, (zs ++ [rb; e])]; (split; [reflexivity|]); auto. exact (Forall_inv P). }
    rewrite bind_cur, bind_con; [|exact (word_kind _ _ _ WN)|auto]. rewrite (word_text _ _ _ WN).
    rewrite bind_get. change (p_structs (going p lb (ts ++ [rb; e]) nt o T)) with (p_structs p). change (p_enums (going p lb (ts ++ [rb; e]) nt o T)) with (p_enums p).
    rewrite FN, PE. cbn [find_enum find some orb]. rewrite bind_when. unfold here. rewrite bind_get, bind_emit.
    change (p_out (going p lb (ts ++ [rb; e]) nt o T)) with o. rewrite bind_at, is_kind_false by congruence.
    rewrite bind_bind. unfold upd_p at 1. unfold pbind at 1.
    change (set_struct (p_sname (going p lb (ts ++ [rb; e]) nt (o ++ [7] ++ le2 65535) T)) [] (going p lb (ts ++ [rb; e]) nt (o ++ [7] ++ le2 65535) T))
      with (going (set_struct (p_sname p) [] p) lb (ts ++ [rb; e]) nt (o ++ [7] ++ le2 65535) T).
    set (p1 := set_struct (p_sname p) [] p). destruct fuel as [|fuel]; [lia|]. rewrite bind_bind. cbn [parse_block]. rewrite bind_bind, EZ, bind_con by auto.
    rewrite bind_bind.
    destruct (members_run E env b ws R fuel ts p1 z zs lb (o ++ [7] ++ le2 65535) T rb [e] M) as (T1 & E1 & S1 & X1 & I1); auto.
    { apply Forall_app. auto. }
    { lia. }
    { cbn [p1 add_site p_fields set_struct app]. now apply own_text. }
    rewrite (bind_ok _ _ _ _ _ E1).
    rewrite bind_end by auto. unfold upd_p, pbind at 1.
    set (o2 := _ ++ sized _ _). match goal with |- context [pbind (add_name n) _ ?q] => change q with (going p1 e [e] rb o2 T1) end.
    destruct (stage_add U UL UT T1 n S1 NU) as (S2 & L2 & X2 & I2). rewrite bind_name; [|exact (proj1 (proj2 S1))|exact L2]. set (T2 := table1 T1 n) in *.
    exists T2. split; [|split; [exact S2|split; [exact I2|intros q I; eapply extends_in; [exact X2|now apply I1]]]].
    unfold o2. replace (lenN o + 1) with (lenN (o ++ [7])) by (rewrite lenN_app; reflexivity).
    set (body := sized (index_of T1) (members_sym [] b)).
    replace ((o ++ [7] ++ le2 65535) ++ body) with ((o ++ [7]) ++ le2 65535 ++ body) by (now rewrite <- !app_assoc).
    pose proof (bind_write (fun x => ret x) p1 e [e] rb (o ++ [7]) (le2 65535) body T2 (le2 (index_of T2 n)) eq_refl) as BW.
    assert (RB : forall (m : par unit) q, pbind m (fun x => ret x) q = m q) by (intros m q; unfold pbind, ret; destruct (m q); reflexivity).
    rewrite RB in BW. rewrite BW. unfold ret. f_equal. f_equal.
    change ((7, [n], []) :: members_sym [] b) with ([(7, [n], []) : sym] ++ members_sym [] b). rewrite sized_app, sized_one. cbn [map flat_map]. rewrite !app_nil_r.
    rewrite <- app_assoc. cbn [app]. unfold body. rewrite (extends_sized T1 T2 (members_sym [] b) X2 I1). reflexivity.
  Qed.
End File.

(** ** The file *)
Definition schema_sym (k : schema) : list sym :=
  map (fun b : bool => ((if b then 0x02 else 0x01), [], [])) (sc_orders k) ++ (0x07, [sc_name k], []) :: members_sym [] (sc_members k).
Lemma schema_sym_ok id k : map (inst id) (schema_sym k) = schema_instrs id k.
Proof. unfold schema_sym, schema_instrs. rewrite map_app, map_map. f_equal. cbn [map]. f_equal. apply members_sym_ok. Qed.
Lemma schema_refs k n : In n (sym_refs (schema_sym k)) <-> In n (schema_names k).
Proof.
  unfold schema_sym, schema_names. rewrite refs_app, !in_app_iff. change (sym_refs ((7, [sc_name k], []) :: members_sym [] (sc_members k))) with (sc_name k :: sym_refs (members_sym [] (sc_members k))).
  rewrite <- members_refs. cbn [In]. split; [intros [I|[I|I]]; auto|intros [I|[I|[]]]; auto].
  exfalso. induction (sc_orders k) as [|b l IH]; [exact I|]. cbn in I. exact (IH I).
Qed.
Lemma schema_syms k : Forall member_wf (sc_members k) -> Forall sym_ok (schema_sym k).
Proof.
  intros F. unfold schema_sym. apply Forall_app. split.
  - apply Forall_forall. intros x I. apply in_map_iff in I as (b & <- & _). destruct b; easy_sym.
  - constructor; [easy_sym|]. eapply Forall_impl; [|apply members_copy; exact F]. intros x C. exact (proj1 C).
Qed.
Lemma structs_read_wf env l ws : structs_read env l ws -> (forall s b, In (s, b) env -> Forall member_wf b) -> forall s b, In (s, b) (env ++ l) -> Forall member_wf b.
Proof.
  induction 1 as [env|env s b l ws sc wr MR N1 N2 N3 SC R IH]; intros K s' b' I; [rewrite app_nil_r in I; eauto|].
  apply (IH) with (s := s'); [|rewrite <- app_assoc; exact I]. intros s0 b0 J. apply in_app_iff in J as [J|[J|[]]]; [eauto|]. injection J as <- <-. eapply members_reads_wf; eauto.
Qed.
Lemma schema_run E k ws : schema_read k ws -> forall fuel path src toks,
  lex src = Some toks -> map word_of toks = ws ++ [(TEof, [])] -> Forall text (all_names k) -> Forall (fun n => lenN n <= 255) (all_names k) -> lenN (all_names k) <= 65536 ->
  (length toks < fuel)%nat ->
  exists p T, parse_file E fuel path src = POk tt p /\ p_err p = false /\ p_strs p = T /\ p_out p = code (schema_instrs (index_of T) k) /\
    stage (all_names k) T /\ (forall n, In n (schema_names k) -> In n T).
Proof.
  intros (sw & os & fw & SR & OR & FR & NN & ND & ->) fuel path src toks LX M TX LB UL L. unfold parse_file. rewrite LX.
  rewrite <- !app_assoc in M. apply map_eq_app in M as (t0 & tt0 & -> & M0 & M). apply map_eq_app in M as (t1 & tt1 & -> & M1 & M). cbn [app] in M. one_token. one_token. one_token.
  apply map_eq_app in M as (ft & tt2 & -> & M2 & M). one_token. one_token. one_token.
  rename t into kw, t2 into nt, t3 into lb, t4 into rb, t5 into e.
  assert (P0 : Forall plain t0) by (apply plain_words; rewrite M0; eapply structs_plain; eauto).
  assert (P1 : Forall plain t1) by (apply plain_words; rewrite M1; eapply orders_plain; eauto).
  assert (P2 : Forall plain ft) by (apply plain_words; rewrite M2; eapply members_plain; eauto).
  assert (PK : plain kw) by (split; rewrite (word_kind _ _ _ W); discriminate).
  assert (PN : plain nt) by (split; rewrite (word_kind _ _ _ W0); discriminate).
  assert (PL : plain lb) by (split; rewrite (word_kind _ _ _ W1); discriminate).
  set (rest := nt :: lb :: ft ++ [rb; e]) in *.
  assert (exists z zs, t1 ++ kw :: rest = z :: zs /\ plain z /\ (tk z = TAt \/ tk z = TPacket)) as (z & zs & EZ & PZ & KZ).
  { destruct t1 as [|z zs]; [exists kw, rest|exists z, (zs ++ kw :: rest)]; (split; [reflexivity|]); (split; [auto; exact (Forall_inv P1)|]).
    - right. exact (word_kind _ _ _ W).
    - left. pose proof (order_at _ _ _ OR) as K. rewrite <- M1 in K. exact K. }
  assert (exists y x, t0 ++ t1 ++ kw :: rest = y :: x /\ plain y) as (y & x & EY & PY).
  { rewrite EZ. destruct t0 as [|y x]; [exists z, zs; auto|exists y, (x ++ z :: zs); split; [reflexivity|exact (Forall_inv P0)]]. }
  set (p0 := parser0 path (t0 ++ t1 ++ kw :: rest)).
  assert (LO : (length t1 = 2 * length (sc_orders k))%nat) by (rewrite <- (orders_len _ _ _ OR), <- M1; now rewrite map_length).
  unfold rest in L. rewrite !app_length in L. cbn [length] in L. rewrite app_length in L. cbn [length] in L. fold rest in L.
  assert (A : advance p0 = POk tt (going p0 y x token0 [] [])).
  { change p0 with (going p0 token0 (t0 ++ t1 ++ kw :: rest) token0 [] []) at 1. rewrite EY. now apply advance_going. }
  rewrite (bind_ok advance _ _ tt _ A).
  set (U := all_names k) in *.
  assert (KN : forall l, incl l U -> known U l).
  { intros l I q J. split; [now apply I|]. exact (proj1 (Forall_forall _ _) LB q (I q J)). }
  assert (KS : known U (flat_map (fun d : structure => flat_map (member_names []) (snd d)) (sc_structs k))) by (apply KN; intros q I; apply in_or_app; now left).
  assert (KM : known U (flat_map (member_names []) (sc_members k))) by (apply KN; intros q I; apply in_or_app; right; apply in_or_app; now left).
  assert (NU : In (sc_name k) U) by (apply in_or_app; right; apply in_or_app; right; now left).
  destruct (structs_run U UL TX E [] (sc_structs k) sw SR fuel t0 p0 y x token0 [] [] z zs M0) as (f1 & p1 & pv1 & T1 & E1 & L1 & RD & S1 & X1 & D1); auto.
  { now rewrite <- EY, EZ. }
  { lia. }
  { split; [repeat split|]. split; [reflexivity|]. split; [intros w0 []|intros w0 b0 []]. }
  { split; [constructor|split; [constructor|intros q []]]. }
  rewrite E1. pose proof (ready_types _ _ _ RD) as PTY. cbn [app] in RD. destruct RD as ((ER & BM & UA & PE & SN & PKT) & ES & TN & KE).
  destruct f1 as [|f1]; [lia|]. cbn [top_level]. rewrite bind_cur, bind_get.
  change (p_err (going p1 z zs pv1 [] T1)) with (p_err p1). rewrite ER. rewrite !is_kind_false by (destruct KZ as [-> | ->]; discriminate). cbn [orb].
  rewrite (bind_ok (top_decorators E f1) _ _ tt (going p1 kw rest (last t1 pv1) ([] ++ code (order_code (sc_orders k))) T1)).
  2:{ apply (top_orders_run E _ os OR); auto; [apply Forall_app; auto|rewrite (word_kind _ _ _ W); discriminate|lia]. }
  rewrite bind_get. cbv beta. set (g := going p1 kw rest (last t1 pv1) ([] ++ code (order_code (sc_orders k))) T1). change (p_cur g) with kw.
  rewrite (word_kind _ _ _ W). cbv iota. rewrite bind_bind, bind_get. change (p_packets g) with (p_packets p1). rewrite PKT. change (0 <? 0) with false. rewrite bind_bind, bind_when.
  rewrite bind_bind. unfold upd_p. unfold pbind at 1.
  set (p2 := set_packets (0 + 1) p1). match goal with |- context [pbind (advance ;; parse_packet E f1) _ ?q] => change q with (going p2 kw rest (last t1 pv1) (code (order_code (sc_orders k))) T1) end.
  rewrite bind_bind. unfold rest. rewrite bind_adv by auto.
  destruct (nest_packet_run U UL TX E (sc_structs k) (sc_members k) fw FR f1 ft p2 nt lb rb e kw (code (order_code (sc_orders k))) T1 (sc_name k) M2 W0
    (word_kind _ _ _ W1) (word_kind _ _ _ W2) (word_kind _ _ _ W3) P2 ltac:(lia) ER BM PE PTY KE) as (T2 & E2 & S2 & I2 & J2); auto.
  { apply find_missing. cbn [p2 p_structs set_packets]. now rewrite ES. }
  rewrite (bind_ok _ _ _ _ _ E2).
  destruct f1 as [|f1]; [lia|]. cbn [top_level]. rewrite bind_cur, bind_get. rewrite is_kind_true by exact (word_kind _ _ _ W3). cbn [orb].
  rewrite bind_get. match goal with |- context [when ?b error ?q] => change (when b error q) with (POk tt q) end.
  eexists _, T2. split; [reflexivity|]. split; [exact ER|]. split; [reflexivity|]. split.
  - rewrite <- schema_sym_ok. fold (sized (index_of T2) (schema_sym k)). unfold schema_sym. rewrite sized_app. cbn [going p_out set_tok set_out set_strs]. f_equal.
    unfold sized, order_code. f_equal. rewrite map_map. apply map_ext. intros []; reflexivity.
  - split; [exact S2|]. intros n I. apply in_app_iff in I as [I|[<-|[]]]; [|exact I2]. apply J2. now apply members_refs.
Qed.
Lemma compile_schema E k ws path src toks : schema_read k ws -> e_read E (e_canon E path) = Some src -> lex src = Some toks ->
  map word_of toks = ws ++ [(TEof, [])] -> Forall text (all_names k) -> Forall (fun n => lenN n <= 255) (all_names k) -> lenN (all_names k) <= 65536 ->
  exists names, NoDup names /\ (forall s, In s names <-> In s (schema_names k)) /\
    forall fuel, (length toks < fuel)%nat -> compile_file E fuel path = CImage (image names (code (schema_instrs (index_of names) k))).
Proof.
  intros SR RD LX M TX LB UL.
  destruct (schema_run E k ws SR (S (length toks)) (e_canon E path) src toks LX M TX LB UL ltac:(lia)) as (p0 & T & E0 & ER & ES & EO0 & ST & NI).
  assert (WFM : Forall member_wf (sc_members k)).
  { destruct SR as (sw & os & fw & SR & OR & FR & _). eapply members_reads_wf; [exact FR|]. intros s b I. apply (structs_read_wf [] _ sw SR) with (s := s); [intros ? ? []|exact I]. }
  pose proof (schema_syms k WFM) as SO.
  assert (NT : Forall (fun x : sym => Forall (fun n => In n T) (snd (fst x))) (schema_sym k)).
  { apply Forall_forall. intros x I. apply Forall_forall. intros n J. apply NI, schema_refs. apply in_flat_map. eauto. }
  pose proof (stage_len _ UL T ST) as SL. destruct ST as (NDT & TT & INC).
  assert (WF : Forall (well_formed T) (schema_instrs (index_of T) k) /\ Forall optimiser_reads (schema_instrs (index_of T) k)).
  { rewrite <- schema_sym_ok. split; apply Forall_forall; intros i I; apply in_map_iff in I as (x & <- & I);
      pose proof (proj1 (Forall_forall _ _) SO x I) as O; pose proof (proj1 (Forall_forall _ _) NT x I) as Q; destruct x as [[op ns] a]; cbn [sym_ok fst snd] in O, Q;
      destruct O as (O1 & O2 & O3 & O4 & O5).
    - split; [exact O1|]. split; [exact O2|]. split; [exact O3|]. cbn [inst ins refs opcode fst snd]. split; [unfold lenN in *; now rewrite map_length|].
      apply Forall_forall. intros z Z. apply in_map_iff in Z as (n & <- & J). pose proof (index_bound T n (proj1 (Forall_forall _ _) Q n J)). lia.
    - unfold optimiser_reads. cbn [inst ins opcode fst snd]. cbn [In] in O5. split; [cbn [In]; intuition|]. split; [intuition|]. intros ->. exfalso. apply O5. auto 8. }
  destruct WF as (WF & OP).
  assert (TN : T <> []). { intros E1. assert (I : In (sc_name k) T) by (apply NI; unfold schema_names; apply in_or_app; right; left; auto). rewrite E1 in I. destruct I. }
  destruct (optimize_spec T _ TT SL WF OP TN) as (names & p' & EO & SI & ND' & RF).
  pose proof SI as SI'. rewrite <- schema_sym_ok in SI'. apply renumber in SI'; auto. rewrite schema_sym_ok in SI'. subst p'.
  exists names. split; [exact ND'|]. split.
  - intros s. rewrite RF, <- schema_refs. split.
    + intros (i & kk & I & J & LK & EN). rewrite <- schema_sym_ok in I. apply in_map_iff in I as (x & <- & I). cbn [inst ins refs] in J. apply in_map_iff in J as (n & <- & J).
      rewrite nth_index in EN by (exact (proj1 (Forall_forall _ _) (proj1 (Forall_forall _ _) NT x I) n J)). subst s. apply in_flat_map. eauto.
    + intros I. assert (IT : In s T) by (now apply NI, schema_refs). apply in_flat_map in I as (x & I & J). exists (inst (index_of T) x), (index_of T s). rewrite <- schema_sym_ok.
      split; [now apply in_map|]. split; [cbn [inst ins refs]; now apply in_map|]. split; [now apply index_bound|now apply nth_index].
  - assert (C0 : compile_file E (S (length toks)) path = CImage (image names (code (schema_instrs (index_of names) k)))).
    { unfold compile_file. rewrite RD, E0, ER, ES, EO0. now rewrite EO. }
    intros fuel L. rewrite (compile_mono E (S (length toks)) fuel path) by (lia || (rewrite C0; discriminate)). exact C0.
Qed.
