(** Lifting the per-instruction facts to whole runs. *)
From Verif Require Import Base SpecBytes LemBase ModelWord LemWord ModelBits LemBits ModelFloat ModelTrans
  ModelCrc ModelVM SpecVM LemAct LemSafe.
Ltac Zify.zify_post_hook ::= Z.div_mod_to_equations.

Section Runs.
  Context {H : Type} (host : H -> request -> H * reply) (lm : libm) (bc : list N).
  Notation reaches := (reaches host lm bc).
  Notation passes := (passes host lm bc).

  Lemma run_crash fuel : forall s h u h' t, run host lm bc fuel s h = (Crash u, h', t) ->
    exists s1 h1 t1, reaches s h s1 h1 /\ ip s1 < lenN bc /\
      interp host (step lm bc s1) h1 = (SUndef u, h', t1).
  Proof.
    induction fuel; intros s h u h' t; cbn [run]; [discriminate|].
    destruct (N.leb_spec (lenN bc) (ip s)); [discriminate|].
    destruct (interp host (step lm bc s) h) as [[x h1] t1] eqn:EI.
    destruct x as [s2|e2 s2|u2]; [|discriminate|].
    - destruct (run host lm bc fuel s2 h1) as [[o h2] t2] eqn:ER.
      intros X; inversion X; subst.
      destruct (IHfuel _ _ _ _ _ ER) as (s1 & h1' & t1' & A & B & C).
      exists s1, h1', t1'. repeat split; auto.
      eapply reaches_trans; [|exact A]. eapply reach_step; [apply reach_refl|auto|exact EI].
    - intros X; inversion X; subst. exists s, h, t. repeat split; auto. constructor.
  Qed.

  Lemma run_done fuel s h e s' h' t : run host lm bc fuel s h = (Done e s', h', t) -> passes s h s' h'.
  Proof.
    intros R. destruct (run_ends host lm bc _ _ _ _ _ _ _ R) as [(A & B & C)|(s1 & h1 & t1 & A & B & C)].
    - now left.
    - right. exists s1, h1, e, t1. auto.
  Qed.

  Lemma run_events fuel : forall s h o h' t ev, run host lm bc fuel s h = (o, h', t) -> In ev t ->
    exists s1 h1 x h2 t1, reaches s h s1 h1 /\ ip s1 < lenN bc /\
      interp host (step lm bc s1) h1 = (x, h2, t1) /\ In ev t1.
  Proof.
    induction fuel; intros s h o h' t ev; cbn [run]; [inversion 1; subst; intros []|].
    destruct (N.leb_spec (lenN bc) (ip s)); [inversion 1; subst; intros []|].
    destruct (interp host (step lm bc s) h) as [[x h1] t1] eqn:EI.
    assert (HD : In ev t1 -> exists s1 h1 x h2 t1, reaches s h s1 h1 /\ ip s1 < lenN bc /\
      interp host (step lm bc s1) h1 = (x, h2, t1) /\ In ev t1).
    { intros HI. exists s, h, x, h1, t1. repeat split; auto. constructor. }
    destruct x as [s2|e2 s2|u2].
    - destruct (run host lm bc fuel s2 h1) as [[o2 h2] t2] eqn:ER.
      intros X; inversion X; subst. intros HI. apply in_app_or in HI. destruct HI as [HI|HI]; auto.
      destruct (IHfuel _ _ _ _ _ _ ER HI) as (s1 & h1' & x' & h2' & t1' & A & B & C).
      exists s1, h1', x', h2', t1'. split; [|auto].
      eapply reaches_trans; [|exact A]. eapply reach_step; [apply reach_refl|auto|exact EI].
    - intros X; inversion X; subst. auto.
    - intros X; inversion X; subst. auto.
  Qed.

  Variables Gs Gq Gw : Prop.
  Hypothesis HQ : Gq -> host_refuses_cleanly host.
  Hypothesis HW : Gw -> host_reads_only host.
  Hypothesis BL : lenN bc < 2 ^ 62.
  Hypothesis WB : wf_bytes bc.

  Lemma obeys : host_obeys host (RP Gq Gw).
  Proof using HQ HW. intros h rq. split; intros; [apply HQ|apply HW]; auto. Qed.

  Lemma step_rel s h : Inv Gs s -> ip s < lenN bc -> (Gs -> ~ hazardous bc s) ->
    let '(x, h', t) := interp host (step lm bc s) h in
    match x with
    | SCont s' | SHalt _ s' => rel Gs Gq Gw (next_op bc s) s s'
    | SUndef u => may Gs bc (next_op bc s) (entered bc s) u
    end /\ Forall (fun ev => lent s (fst ev)) t.
  Proof using HQ HW BL WB.
    intros I HI NH.
    pose proof (interp_all host _ _ _ _ _ _ obeys (step_good Gs Gq Gw lm bc s BL WB I HI NH) h) as X.
    destruct (interp host (step lm bc s) h) as [[x h'] t]. destruct X as [X Y]. split; auto.
  Qed.

  (** What is preserved over any number of instructions *)
  Record mono (s s' : st) : Prop := {
    m_md : md s' = md s;
    m_len : dlen s' = dlen s;
    m_inv : Inv Gs s';
    m_pos : pos s <= pos s';
    m_beyond : Gq -> forall i, pos s' <= 8 * i -> nthN (buf s') i = nthN (buf s) i;
    m_done : Gq -> forall i, i < cur s -> nthN (buf s') i = nthN (buf s) i }.

  Lemma mono_refl s : Inv Gs s -> mono s s.
  Proof using. clear BL HQ HW WB. intros. constructor; auto. lia. Qed.
  Lemma mono_trans s s1 s2 : mono s s1 -> mono s1 s2 -> mono s s2.
  Proof using. clear BL HQ HW WB.
    intros [A1 A2 A3 A4 A5 A6] [B1 B2 B3 B4 B5 B6]. constructor; auto; try congruence; try lia.
    - intros G i Hi. rewrite B5, A5; auto. lia.
    - intros G i Hi. rewrite B6, A6; auto.
      unfold pos in A4. pose proof (i_boff _ _ A3). lia.
  Qed.

  Lemma nthN_sbit e b b' i : wf_bytes b -> wf_bytes b' ->
    (forall j, 8 * i <= j < 8 * i + 8 -> sbit e b j = sbit e b' j) -> nthN b i = nthN b' i.
  Proof using. clear BL HQ HW WB.
    intros W W' HS. apply N.bits_inj. intros k.
    destruct (N.ltb_spec k 8).
    - destruct e.
      + specialize (HS (8 * i + k)). unfold sbit in HS.
        replace ((8 * i + k) / 8) with i in HS by lia.
        replace ((8 * i + k) mod 8) with k in HS by lia. apply HS. lia.
      + specialize (HS (8 * i + (7 - k))). unfold sbit in HS.
        replace ((8 * i + (7 - k)) / 8) with i in HS by lia.
        replace (7 - (8 * i + (7 - k)) mod 8) with k in HS by lia. apply HS. lia.
    - rewrite !testbit_byte by (auto; now apply wf_nthN). reflexivity.
  Qed.

  Lemma rel_mono op s s' : Inv Gs s -> rel Gs Gq Gw op s s' -> mono s s'.
  Proof using. clear BL HQ HW WB.
    intros I [A1 A2 A3 A4 A5 A6 A7]. constructor; auto.
    - intros G i Hi. apply (nthN_sbit (en s)); [apply A3|apply I|]. intros j J. apply A5; auto; lia.
    - intros G i Hi. apply (nthN_sbit (en s)); [apply A3|apply I|]. intros j J. unfold pos in *. apply A5; auto; lia.
  Qed.

  Lemma reaches_mono s h s' h' : Inv Gs s -> reaches s h s' h' ->
    (Gs -> during host lm bc s h (fun s => ~ hazardous bc s)) -> mono s s'.
  Proof using HQ HW BL WB.
    intros I R HX. induction R; [now apply mono_refl|].
    assert (M : mono s s') by auto. eapply mono_trans; [exact M|].
    pose proof (step_rel s' h' (m_inv _ _ M) H0 (fun G => HX G _ _ R H0)) as X.
    rewrite H1 in X. destruct X as [X _]. eapply rel_mono; eauto. apply (m_inv _ _ M).
  Qed.
  Lemma passes_mono s h s' h' : Inv Gs s -> passes s h s' h' ->
    (Gs -> during host lm bc s h (fun s => ~ hazardous bc s)) -> mono s s'.
  Proof using HQ HW BL WB.
    intros I [R|(s1 & h1 & e & t & R & HI & EI)] HX; [eapply reaches_mono; eauto|].
    pose proof (reaches_mono _ _ _ _ I R HX) as M.
    pose proof (step_rel s1 h1 (m_inv _ _ M) HI (fun G => HX G _ _ R HI)) as X.
    rewrite EI in X. destruct X as [X _]. eapply mono_trans; [exact M|].
    eapply rel_mono; eauto. apply (m_inv _ _ M).
  Qed.

  Lemma crash_may fuel s h u h' t : Inv Gs s -> run host lm bc fuel s h = (Crash u, h', t) ->
    (Gs -> during host lm bc s h (fun s => ~ hazardous bc s)) ->
    exists s1 h1, reaches s h s1 h1 /\ ip s1 < lenN bc /\ may Gs bc (next_op bc s1) (entered bc s1) u.
  Proof using HQ HW BL WB.
    intros I R HX. destruct (run_crash _ _ _ _ _ _ R) as (s1 & h1 & t1 & RR & HI & EI).
    pose proof (reaches_mono _ _ _ _ I RR HX) as M.
    pose proof (step_rel s1 h1 (m_inv _ _ M) HI (fun G => HX G _ _ RR HI)) as X.
    rewrite EI in X. destruct X as [X _]. eauto.
  Qed.

  Lemma events_lent fuel s h o h' t : Inv Gs s -> run host lm bc fuel s h = (o, h', t) ->
    (Gs -> during host lm bc s h (fun s => ~ hazardous bc s)) ->
    forall rq r p l, In (rq, r) t -> rq_pl rq = PBuf p l -> p + lenN l <= dlen s.
  Proof using HQ HW BL WB.
    intros I R HX rq r p l HI HP. destruct (run_events _ _ _ _ _ _ _ R HI) as (s1 & h1 & x & h2 & t1 & RR & HB & EI & HIn).
    pose proof (reaches_mono _ _ _ _ I RR HX) as M.
    pose proof (step_rel s1 h1 (m_inv _ _ M) HB (fun G => HX G _ _ RR HB)) as X.
    rewrite EI in X. destruct X as [_ X]. rewrite Forall_forall in X. specialize (X _ HIn).
    unfold lent in X. cbn [fst] in X. rewrite HP in X. rewrite (m_len _ _ M) in X. apply X.
  Qed.

  (** Decoding leaves the buffer alone *)
  Lemma passes_dec s h s' h' : Gw -> md s = Dec -> Inv Gs s -> passes s h s' h' ->
    (Gs -> during host lm bc s h (fun s => ~ hazardous bc s)) ->
    during host lm bc s h (fun s => opcode_at bc s <> 0x41) -> buf s' = buf s.
  Proof using HQ HW BL WB.
    intros G MD I P HX HO.
    assert (HR : forall s1 h1, reaches s h s1 h1 -> buf s1 = buf s).
    { clear P. intros s1 h1 R. induction R as [|s h s2 h2 s3 h3 t R IHR HI EI]; auto.
      pose proof (reaches_mono _ _ _ _ I R HX) as M.
      pose proof (step_rel s2 h2 (m_inv _ _ M) HI (fun G => HX G _ _ R HI)) as X.
      rewrite EI in X. destruct X as [X _]. rewrite (e_dec _ _ _ _ _ _ X); auto.
      - rewrite (m_md _ _ M); auto.
      - now apply (HO s2 h2). }
    destruct P as [R|(s1 & h1 & e & t & R & HI & EI)]; eauto.
    pose proof (reaches_mono _ _ _ _ I R HX) as M.
    pose proof (step_rel s1 h1 (m_inv _ _ M) HI (fun G => HX G _ _ R HI)) as X.
    rewrite EI in X. destruct X as [X _]. rewrite (e_dec _ _ _ _ _ _ X); eauto.
    rewrite (m_md _ _ M); auto.
  Qed.

  (** Emitted bits are final *)
  Definition settled (s s1 : st) : Prop :=
    (forall j, j < pos s -> sbit (en s) (buf s1) j = sbit (en s) (buf s) j) /\
    (en s1 = en s \/ 8 * ((pos s + 7) / 8) <= pos s1).

  Lemma sbit_any e e' b b' i : wf_bytes b -> wf_bytes b' ->
    (forall j, 8 * i <= j < 8 * i + 8 -> sbit e b j = sbit e b' j) ->
    forall j, 8 * i <= j < 8 * i + 8 -> sbit e' b j = sbit e' b' j.
  Proof using. clear BL HQ HW WB.
    intros W W' HS j J. unfold sbit. replace (j / 8) with i by lia. now rewrite (nthN_sbit e b b' i).
  Qed.

  Lemma settled_step s s1 s2 : Inv Gs s -> mono s s1 -> settled s s1 ->
    rel Gs Gq Gw (next_op bc s1) s1 s2 -> Gq -> ~ emits_mid_byte bc s1 -> ~ switches_mid_byte bc s1 -> settled s s2.
  Proof using. clear BL HQ HW WB.
    intros I M [S1 S2] R G NE NS.
    assert (NH : ~ haz_emit (next_op bc s1) s1) by exact NE.
    assert (FR : forall j, j < pos s1 -> sbit (en s1) (buf s2) j = sbit (en s1) (buf s1) j).
    { intros j J. apply (e_frame _ _ _ _ _ _ R); auto; [tauto|lia]. }
    pose proof (m_pos _ _ M) as MP. pose proof (e_pos _ _ _ _ _ _ R) as EP. split.
    - intros j J. rewrite <- S1 by auto. destruct S2 as [S2|S2].
      + rewrite <- S2. apply FR. lia.
      + apply (sbit_any (en s1) (en s) _ _ (j / 8)); [apply (e_inv _ _ _ _ _ _ R)|apply (m_inv _ _ M)| |lia].
        intros k K. apply FR. lia.
    - destruct (N.eq_dec (next_op bc s1) 1) as [E1|E1]; [|destruct (N.eq_dec (next_op bc s1) 2) as [E2|E2]].
      + right. assert (boff s1 = 0) by (destruct (N.eq_dec (boff s1) 0); auto; exfalso; apply NS; split; auto).
        unfold pos in *. lia.
      + right. assert (boff s1 = 0) by (destruct (N.eq_dec (boff s1) 0); auto; exfalso; apply NS; split; auto).
        unfold pos in *. lia.
      + rewrite (e_en _ _ _ _ _ _ R); auto. destruct S2; [auto|right; lia].
  Qed.

  Lemma passes_settled s h s' h' : Gq -> Inv Gs s -> passes s h s' h' ->
    (Gs -> during host lm bc s h (fun s => ~ hazardous bc s)) ->
    during host lm bc s h (fun s => ~ emits_mid_byte bc s /\ ~ switches_mid_byte bc s) -> settled s s'.
  Proof using HQ HW BL WB.
    intros G I P HX HO.
    assert (HR : forall s1 h1, reaches s h s1 h1 -> settled s s1).
    { clear P. intros s1 h1 R. induction R as [|s h s2 h2 s3 h3 t R IHR HI EI]; [split; auto|].
      pose proof (reaches_mono _ _ _ _ I R HX) as M.
      pose proof (step_rel s2 h2 (m_inv _ _ M) HI (fun G => HX G _ _ R HI)) as X.
      rewrite EI in X. destruct X as [X _]. destruct (HO _ _ R HI). eapply (settled_step s s2); eauto. }
    destruct P as [R|(s1 & h1 & e & t & R & HI & EI)]; eauto.
    pose proof (reaches_mono _ _ _ _ I R HX) as M.
    pose proof (step_rel s1 h1 (m_inv _ _ M) HI (fun G => HX G _ _ R HI)) as X.
    rewrite EI in X. destruct X as [X _]. destruct (HO _ _ R HI). eapply (settled_step s s1); eauto.
  Qed.
End Runs.

(** ** The model's hazards are the ones of the specification *)
Lemma fetchv1 bc p : wf_bytes bc -> fst (fetchv W1 bc p) = nthN bc p.
Proof.
  intros W. rewrite fetchv_eq by auto. destruct (N.leb_spec (p + wbytes W1) (lenN bc)) as [HL|HL]; cbn [wbytes fst] in *.
  - assert (E : sub bc p 1 = [nthN bc p]).
    { apply nthN_ext. { rewrite lenN_sub by lia. reflexivity. }
      intros i Hi. rewrite lenN_sub in Hi by lia. rewrite nthN_sub by lia. replace i with 0 by lia. now rewrite N.add_0_r. }
    rewrite E. cbn. lia.
  - symmetry. apply nthN_out. lia.
Qed.
Lemma int_type_bytes ty t : int_type ty = Some t -> type_bytes ty = Some (wbytes (i_w t)).
Proof.
  unfold int_type, type_bytes. intros E.
  repeat match goal with
  | H : match ?x with _ => _ end = Some _ |- _ => destruct x; try discriminate H; try (inversion H; subst; reflexivity)
  end.
Qed.
Lemma haz_pad_spec bc s : wf_bytes bc -> haz_pad bc (next_op bc s) (entered bc s) -> pads_past_end bc s.
Proof.
  intros W (E & M & L). assert (EN : entered bc s = set_ip s (ip s + 1)) by (unfold entered, align; now rewrite E).
  rewrite EN in *. rewrite fetchv1 in L by auto. cbn in M. split; auto.
Qed.
Lemma haz_enum_spec bc s : wf_bytes bc -> boff s < 8 -> haz_enum bc (next_op bc s) (entered bc s) -> enum_before_start bc s.
Proof.
  intros W B (E & t & T & L). rewrite fetchv1 in T by auto. split; auto.
  exists (wbytes (i_w t)). unfold position. revert T L. unfold entered, align. rewrite E. change (aligns 0x4B) with true.
  cbn [andb boff set_ip]. destruct (N.eqb_spec (boff s) 0); cbn [negb set_ip ip cur set_cur set_boff]; intros T L; apply int_type_bytes in T;
    (split; [exact T|]).
  - lia.
  - lia.
Qed.
Lemma haz_emit_spec bc s : haz_emit (next_op bc s) (entered bc s) -> emits_mid_byte bc s.
Proof.
  intros [E B]. split; auto. revert B. unfold entered, align. now rewrite E.
Qed.
Lemma haz_table_spec bc s : wf_bytes bc -> ip s < lenN bc -> haz_table bc (next_op bc s) (entered bc s) -> huge_table bc s.
Proof.
  intros W HI (E & T). split; auto.
  assert (EN : entered bc s = set_ip s (ip s + 1)) by (unfold entered, align; now rewrite E).
  rewrite EN in T. cbn [ip set_ip] in T. rewrite !(fetchv_eq _ bc (ip s + 1)) in T by auto.
  destruct (N.leb_spec (ip s + 1 + wbytes W2) (lenN bc)) as [L1|L1]; cbn [wbytes snd] in *.
  - rewrite (fetchv_eq _ bc (ip s + 1 + 2)) in T by auto.
    destruct (N.leb_spec (ip s + 1 + 2 + wbytes W4) (lenN bc)) as [L2|L2]; cbn [wbytes] in *.
    + unfold operand_at. replace (ip s + 3) with (ip s + 1 + 2) by lia.
      set (rel := val_of LE (sub bc (ip s + 1 + 2) 4)) in *.
      rewrite (fetchv_eq _ bc (ip s + 1 + 2 + 4 + rel)) in T by auto.
      destruct (N.leb_spec (ip s + 1 + 2 + 4 + rel + wbytes W8) (lenN bc)) as [L3|L3]; cbn [wbytes] in *.
      * rewrite (fetchv_eq _ bc (ip s + 1 + 2 + 4 + rel + 8)) in T by auto.
        destruct (N.leb_spec (ip s + 1 + 2 + 4 + rel + 8 + wbytes W8) (lenN bc)) as [L4|L4]; cbn [wbytes] in *.
        -- replace (ip s + 7 + rel) with (ip s + 1 + 2 + 4 + rel) by lia. apply T.
        -- lia.
      * destruct (fetchv W8 bc (ip s + 1 + 2 + 4 + rel)). lia.
    + destruct (fetchv W8 bc (ip s + 1 + 2 + 0)) as [mn t]. destruct (fetchv W8 bc t). lia.
  - rewrite (fetchv_eq _ bc (ip s + 1)) in T by auto.
    destruct (N.leb_spec (ip s + 1 + wbytes W4) (lenN bc)) as [L2|L2]; cbn [wbytes] in *; [lia|].
    destruct (fetchv W8 bc (ip s + 1 + 0)) as [mn t]. destruct (fetchv W8 bc t). lia.
Qed.
