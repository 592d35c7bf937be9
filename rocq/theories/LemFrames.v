(** Any bytes, read with a packet that has bit fields, checksums and converted numbers. *)
From Coq Require Import ZifyBool ZifyNat ZifyN.
From Verif Require Import Base SpecBytes LemBase ModelWord LemWord ModelBits LemBits ModelFloat ModelTrans ModelVM SpecVM SpecCrc LemAct LemWire LemInstr LemField LemCheck LemCrc LemSeal
  SpecParse SpecNames SpecPacket SpecFlow SpecMessage LemFlow LemImage LemSend LemMessage SpecNest LemNest LemNestRun SpecRead LemReadBytes LemReadVM LemRead
  SpecParts LemPartsBits LemPartsNum LemPartsRun LemEvolve SpecFrames LemFrameBits.
Ltac Zify.zify_post_hook ::= Z.div_mod_to_equations.

(** ** Values of parts *)
Lemma every_given id names p : part_plain id p -> part_definite names p -> exists g, part_ok p g.
Proof.
  destruct p as [m|l|ds n|ds ty n]; cbn [part_plain part_definite part_ok]; intros P D.
  - exists (Tree (zero m)). eapply zero_ok; eauto.
  - destruct D as (B & M). destruct (run_exists id LE l P B 0 (fun _ => false)) as (vs & K & _). exists (Nums vs). split; [exact K|]. now rewrite (run_length id LE l P B 0 vs K).
  - exists Auto. exact Logic.I.
  - exists (Stored 0). apply number_zero.
Qed.
Lemma every_givens id names ps : Forall (part_plain id) ps -> Forall (part_definite names) ps -> exists gs, Forall2 part_ok ps gs.
Proof.
  induction 1 as [|p ps P F IH]; intros D; [exists []; constructor|]. inversion D as [|? ? D1 D2]; subst. destruct (every_given id names p P D1) as (g & G). destruct (IH D2) as (gs & GS).
  exists (g :: gs). now constructor.
Qed.
Lemma length_apart {A} (x x' r r' : list A) : lenN x = lenN x' -> x ++ r = x' ++ r' -> x = x' /\ r = r'.
Proof.
  intros L E. assert (LL : length x = length x') by (unfold lenN in L; lia). split.
  - apply (f_equal (firstn (length x))) in E. rewrite LL in E at 2. rewrite !firstn_app, !firstn_all, !Nat.sub_diag in E. cbn [firstn] in E. now rewrite !app_nil_r in E.
  - apply (f_equal (skipn (length x))) in E. rewrite LL in E at 2. now rewrite !skipn_app, !skipn_all, !Nat.sub_diag in E.
Qed.
Lemma part_apart id names p b o g g' r r' : part_plain id p -> part_definite names p -> part_ok p g -> part_ok p g' ->
  fst (part_bytes b p g o) ++ r = fst (part_bytes b p g' o) ++ r' -> g = g' /\ r = r'.
Proof.
  destruct p as [m|l|ds n|ds ty n], g as [t|vs| |raw|], g' as [t'|vs'| |raw'|]; cbn [part_plain part_definite part_ok part_bytes fst]; intros P D K K' E; try contradiction.
  - destruct (member_apart m _ _ _ _ _ K K' E) as (-> & ->). auto.
  - destruct D as (B & M), K as (K & _), K' as (K' & _). pose proof (run_length id o l P B 0 vs K) as RL. pose proof (run_length id o l P B 0 vs' K') as RL'.
    apply length_apart in E as (E & ->); [|rewrite !lenN_packed; lia]. split; [|reflexivity]. f_equal. eapply packed_apart; eauto.
  - apply app_inv_head in E. auto.
  - destruct K as (K & _), K' as (K' & _). apply bytes_apart in E as (-> & ->); auto; now rewrite N2Nat.id.
  - destruct D as (D & _). tauto.
  - destruct D as (D & _). tauto.
  - destruct D as (D & _). tauto.
Qed.
Lemma parts_cons b p ps g gs o : parts_bytes b (p :: ps) (g :: gs) o =
  (fst (part_bytes b p g o) ++ fst (parts_bytes (b ++ fst (part_bytes b p g o)) ps gs (snd (part_bytes b p g o))),
   snd (parts_bytes (b ++ fst (part_bytes b p g o)) ps gs (snd (part_bytes b p g o)))).
Proof. cbn [parts_bytes]. destruct (part_bytes b p g o) as [x o1]. cbn [fst snd]. destruct (parts_bytes (b ++ x) ps gs o1) as [y o2]. reflexivity. Qed.
Lemma parts_apart id names ps : Forall (part_plain id) ps -> Forall (part_definite names) ps -> forall b o gs gs' r r', Forall2 part_ok ps gs -> Forall2 part_ok ps gs' ->
  fst (parts_bytes b ps gs o) ++ r = fst (parts_bytes b ps gs' o) ++ r' -> gs = gs' /\ r = r'.
Proof.
  induction 1 as [|p ps P F IH]; intros D b o gs gs' r r' K K' E; inversion D as [|? ? D1 D2]; subst.
  - inversion K; subst. inversion K'; subst. auto.
  - inversion K as [|? g ? gs0 G GS]; subst. inversion K' as [|? g' ? gs0' G' GS']; subst. rewrite !parts_cons in E. cbn [fst] in E. rewrite <- !app_assoc in E.
    destruct (part_apart id names p b o g g' _ _ P D1 G G' E) as (<- & E'). destruct (IH D2 _ _ _ _ _ _ GS GS' E') as (<- & <-). auto.
Qed.

Section Reads.
  Context {H : Type} (host : H -> request -> H * reply) (lm : libm) (bc : list N) (WB : wf_bytes bc).
  Hypothesis LI : listens host.
  Variables (id : list N -> N) (names : N).
  Hypothesis NM : names <= 65536.
  Notation steps := (steps host lm bc).
  Notation goes := (goes host lm bc).
  Notation fails := (fails host lm bc).
  Lemma fails_goes n s h s1 h1 t e : goes n s h s1 h1 t -> fails s1 h1 e -> fails s h e.
  Proof.
    intros G. induction G as [s h|n s h s1 h1 t1 s2 h2 t2 I E G IH]; [auto|]. intros F. eapply fails_step; eauto.
  Qed.
  Lemma goes1_opt s h s1 h1 t : goes 1 s h s1 h1 t -> opt s = false -> opcode_at bc s <> 0x4A -> opt s1 = false.
  Proof. intros G O NE. inversion G as [|? ? ? s2 h2 t1 ? ? t2 I E G2]; subst. inversion G2; subst. eapply step_opt; eauto. Qed.

  (** ** What a listening host hears *)
  Lemma hear_parts ps : Forall (part_plain id) ps -> Forall (part_definite names) ps -> forall gs, Forall2 part_ok ps gs -> forall h pos old, exists t h', parts_said Dec id pos old ps gs t /\ plays host h t h'.
  Proof.
    assert (HB : forall l vs, bits_ok l vs -> forall h, exists t h', bits_said Dec id l vs t /\ plays host h t h').
    { induction l as [|[sg w n|w|b] l IH]; intros vs K h; cbn [bits_ok bits_said] in *; try (now apply IH).
      - destruct vs; [|contradiction]. exists [], h. split; [reflexivity|constructor].
      - destruct vs as [|v vs]; [contradiction|]. destruct K as (_ & K).
        destruct (hear host LI h (ask (id n) (if sg then 33 else 32) (cvar 8 v) (if sg then HBitI w else HBitU w))) as (h1 & r & E & R & _). destruct (IH vs K h1) as (t & h2 & T & P).
        eexists _, h2. split; [exists r, t; split; [exact R|]; split; [discriminate|]; split; [exact T|reflexivity]|econstructor; eauto]. }
    induction 1 as [|p ps P F IH]; intros D gs K h pos old; inversion D as [|? ? D1 D2]; subst; inversion K as [|? g ? gs0 G GS]; subst; [exists [], h; split; constructor|].
    destruct p as [m|l|ds n|ds ty n], g as [t|vs| |raw|]; cbn [part_ok part_plain part_definite] in *; try contradiction.
    - destruct (hear_member host LI id m t G h [] pos old) as (z & t1 & h1 & S1 & P1). destruct (IH D2 gs0 GS h1 (pos + z) (skipn (N.to_nat z) old)) as (t2 & h2 & S2 & P2).
      exists (t1 ++ t2), h2. split; [econstructor; eauto|eapply LemNestRun.plays_join; eauto].
    - destruct G as (G & M). destruct (HB l vs G h) as (t1 & h1 & S1 & P1). set (z := lenN (stream_of LE 0 l vs) / 8).
      destruct (IH D2 gs0 GS h1 (pos + z) (skipn (N.to_nat z) old)) as (t2 & h2 & S2 & P2).
      exists (t1 ++ t2), h2. split; [eapply parts_said_bits; eauto; unfold z; lia|eapply LemNestRun.plays_join; eauto].
    - destruct (IH D2 gs0 GS h (pos + crc_width (crc_of ds)) (skipn (N.to_nat (crc_width (crc_of ds))) old)) as (t2 & h2 & S2 & P2). exists t2, h2. split; [now constructor|exact P2].
    - destruct D1 as (_ & D1). destruct (D1 raw G) as (v & V). set (c := u_conv (num_of ds)) in *.
      destruct (hear host LI h (ask (id n) (shown_type c ty) (cvar (shown_size c ty) v) (HField ty (trans_of c)))) as (h1 & r & E & R & _).
      destruct (IH D2 gs0 GS h1 (pos + width ty) (skipn (N.to_nat (width ty)) old)) as (t2 & h2 & S2 & P2).
      eexists _, h2. split; [eapply (parts_said_number Dec id pos old ds ty n raw v r); eauto|econstructor; eauto].
    - destruct D1 as (D1 & _). tauto.
  Qed.

  (** ** Converted numbers *)
  Lemma number_enter ds ty n q s h o L bf p : conv_wf (u_conv (num_of ds)) -> ~ In NOptional ds -> placed bc q (code (part_instrs id (Numeric ds ty n))) -> at_point s Dec o q L bf p -> opt s = false ->
    exists m s1 q1, goes m s h s1 h [] /\ placed bc q1 (code [ins ty [id n] []]) /\ near s1 Dec (order_in (u_big (num_of ds)) o) q1 L bf p (trans_of (u_conv (num_of ds))) /\ opt s1 = false /\
      (forall s2 h2 p2, near s2 Dec (order_in (u_big (num_of ds)) o) (q1 + 3) L bf p2 TNone -> opt s2 = false ->
        exists m' s', goes m' s2 h2 s' h2 [] /\ at_point s' Dec (order_out (u_big (num_of ds)) o) (q + lenN (code (part_instrs id (Numeric ds ty n)))) L bf p2 /\ opt s' = false).
  Proof.
    intros W NO P AT OP. cbn [part_instrs] in *. set (c := num_of ds) in *. apply at_near in AT.
    assert (FO : filter is_optional ds = []).
    { destruct (filter is_optional ds) as [|d l] eqn:E; [reflexivity|]. exfalso. apply NO. assert (I : In d (filter is_optional ds)) by (rewrite E; now left). apply filter_In in I as (I & X). destruct d; try discriminate X. exact I. }
    rewrite FO in *. cbn [map app] in *. rewrite !code_app in P |- *. apply placed_app in P as (P2 & P3). rewrite lenN_app.
    destruct (conv_steps host lm bc WB (u_conv c) _ s h Dec o L bf p W P2 AT) as (n2 & s2 & S2 & N2 & O2). rewrite OP in O2.
    set (q2 := q + lenN (code (conv_instrs (u_conv c)))) in *. rewrite !N.add_assoc. fold q2.
    destruct (u_big c) eqn:BG; cbn [marked order_in order_out] in *.
    - rewrite !code_app in P3 |- *. apply placed_app in P3 as (P3 & P4). apply placed_app in P4 as (P4 & P5). rewrite !lenN_app. change (lenN (code [ins 2 [] []])) with 1 in *. change (lenN (code [ins 1 [] []])) with 1 in *.
      change (lenN (code [ins ty [id n] []])) with 3 in *.
      destruct (order_near host lm bc q2 true s2 h Dec o L bf p _ P3 N2) as (s3 & S3 & N3 & O3). rewrite O2 in O3.
      exists (n2 + 1)%nat, s3, (q2 + 1). split; [change (@nil event) with (@nil event ++ []); eapply goes_trans; eauto|]. split; [exact P4|]. split; [exact N3|]. split; [exact O3|].
      intros s4 h2 p2 N4 O4. destruct (order_near host lm bc (q2 + 1 + 3) false s4 h2 Dec BE L bf p2 _ P5 N4) as (s5 & S5 & N5 & O5). exists 1%nat, s5. split; [exact S5|]. rewrite O4 in O5. split; [|exact O5].
      apply at_near. rewrite !N.add_assoc. exact N5.
    - change (lenN (code [ins ty [id n] []])) with 3 in *. exists n2, s2, q2. split; [exact S2|]. split; [exact P3|]. split; [exact N2|]. split; [exact O2|].
      intros s4 h2 p2 N4 O4. exists 0%nat, s4. split; [constructor|]. split; [|exact O4]. apply at_near. exact N4.
  Qed.

  (** ** Going on when the bytes are there *)
  Lemma go_part p g b o q s h rest : part_plain id p -> small id names (part_names p) -> part_depth p <= 8 -> part_definite names p -> part_ok p g ->
    placed bc q (code (part_instrs id p)) -> let x := fst (part_bytes b p g o) in at_point s Dec o q [] (b ++ x ++ rest) (lenN b) -> wf_bytes (b ++ x ++ rest) -> opt s = false ->
    exists n s' h' t, goes n s h s' h' t /\ at_point s' Dec (snd (part_bytes b p g o)) (q + lenN (code (part_instrs id p))) [] (b ++ x ++ rest) (lenN b + lenN x) /\ opt s' = false.
  Proof.
    destruct p as [m|l|ds n|ds ty n], g as [t|vs| |raw|]; intros PP SM DL D K P x AT WF OP; try contradiction K; cbn [part_plain part_names part_depth part_definite part_ok] in PP, SM, DL, D, K;
      cbn [part_bytes snd]; cbn [part_bytes fst] in x.
    - destruct (go_member host lm bc WB LI id names NM m t [] q s o [] b rest h PP SM ltac:(change (lenN []) with 0; lia) D K P AT WF) as (n & s' & h' & t' & S & AT'). exists n, s', h', t'.
      split; [now apply steps_goes|]. split; [exact AT'|]. exact (steps_opt host lm bc _ _ _ _ _ _ WB S OP).
    - destruct D as (B & M), K as (K & _). pose proof (run_length id o l PP B 0 vs K) as RL. assert (LX : 8 * lenN x = run_width l) by (unfold x; rewrite lenN_packed; lia).
      destruct AT as ((R1 & R2 & R3 & R4 & R5) & A1 & A2 & A3).
      destruct (bits_any host lm bc WB LI id l PP B q s h o [] (b ++ x ++ rest) P) as (n & s' & h' & t & S & (I1 & I2 & I3 & I4 & I5 & I6 & I7) & PO); auto.
      { unfold in_bits. rewrite R3. repeat split; auto. }
      { unfold position. rewrite !lenN_app. lia. }
      exists n, s', h', t. split; [now apply steps_goes|]. split; [|exact (steps_opt host lm bc _ _ _ _ _ _ WB S OP)].
      unfold position in PO. rewrite !lenN_app in PO. unfold at_point, ready. repeat split; auto; lia.
    - cbn [part_instrs] in P |- *. set (c := crc_of ds) in *. destruct (mark_point host lm bc q (k_big c) [check_instr c] s h Dec o (order_in (k_big c) o) [] (b ++ x ++ rest) (lenN b) [] h (b ++ x ++ rest) (lenN b + lenN x) P AT) as (n1 & s3 & S3 & AT3).
      { intros q2 s2 P2 AT2. destruct (check_steps host lm bc WB q2 c s2 h Dec _ [] b (x ++ rest) P2 AT2 WF) as (s3 & S3 & AT3).
        - unfold x. fold c. destruct (k_big c); apply fits_dec.
        - exists 1%nat, s3. split; [exact S3|]. assert (LX : lenN x = crc_width c) by (unfold x; rewrite lenN_bytes_of; lia). rewrite LX.
          replace (after (bytes_of (order_in (k_big c) o) (N.to_nat (crc_width c)) (checksum c b)) (x ++ rest)) with (x ++ rest) in AT3; [exact AT3|].
          unfold x. fold c. destruct (k_big c); cbn [order_in]; destruct (fits_dec (bytes_of BE (N.to_nat (crc_width c)) (checksum c b)) rest) as (_ & FA); destruct (fits_dec (bytes_of o (N.to_nat (crc_width c)) (checksum c b)) rest) as (_ & FB); symmetry; auto. }
      exists n1, s3, h, []. split; [now apply steps_goes|]. split; [|exact (steps_opt host lm bc _ _ _ _ _ _ WB S3 OP)]. destruct (k_big c); exact AT3.
    - destruct PP as (TY & CT & CW), D as (NO & RP). destruct (RP raw K) as (v & V). set (c := u_conv (num_of ds)) in *.
      assert (KL : id n < 65536) by (specialize (SM n (or_introl eq_refl)); lia).
      destruct (number_enter ds ty n q s h o [] (b ++ x ++ rest) (lenN b) CW NO P AT OP) as (m1 & s1 & q1 & S1 & P1 & N1 & O1 & EX). fold c in N1.
      destruct (hear host LI h (ask (id n) (shown_type c ty) (cvar (shown_size c ty) v) (HField ty (trans_of c)))) as (h1 & r & E & R & _).
      assert (XE : x = bytes_of (order_in (u_big (num_of ds)) o) (N.to_nat (width ty)) raw) by reflexivity.
      destruct (present_step host lm bc WB c ty (id n) q1 s1 h h1 Dec (order_in (u_big (num_of ds)) o) [] b (x ++ rest) raw v r TY CT KL K WF P1 N1) as (s2 & S2 & N2); auto.
      { rewrite <- XE. apply fits_dec. }
      rewrite <- XE in N2. destruct (fits_dec x rest) as (_ & FA). rewrite FA in N2 by reflexivity.
      assert (O2 : opt s2 = false).
      { eapply goes1_opt; eauto. destruct N1 as (_ & _ & _ & _ & N5 & _). cbn [code flat_map instr_bytes opcode refs args ins app] in P1. rewrite app_nil_r in P1. destruct (placed_key bc q1 ty (id n) _ P1 KL s1 N5) as (HO & _). rewrite HO. lia. }
      destruct (EX s2 h1 _ N2 O2) as (m3 & s3 & S3 & AT3 & O3). eexists _, s3, h1, _. split; [eapply goes_trans; [exact S1|]; eapply goes_trans; [exact S2|exact S3]|].
      split; [|exact O3]. assert (LX : lenN x = width ty) by (rewrite XE, lenN_bytes_of; lia). rewrite LX. exact AT3.
    - destruct D as (D & _). tauto.
  Qed.

  (** ** One part *)
  Definition misfit (b : list N) (p : part) (o : endian) (old : list N) : Prop :=
    exists ds n stored rest, p = Check ds n /\ old = stored ++ rest /\ lenN stored = crc_width (crc_of ds) /\ stored <> fst (part_bytes b (Check ds n) Auto o).
  Definition stub (p : part) (old : list N) : Prop := exists ds n, p = Check ds n /\ lenN old < crc_width (crc_of ds).
  Definition part_verdict (p : part) (b : list N) (o : endian) (old : list N) (s : st) (h : H) : Prop :=
    let bytes g := fst (part_bytes b p g o) in
    (exists g rest, part_ok p g /\ old = bytes g ++ rest) \/ (fails s h EOob /\ (short (part_ok p) bytes old \/ stub p old)) \/ (fails s h EValidation /\ bad (part_ok p) bytes old) \/
    (fails s h ECrc /\ bad (part_ok p) bytes old /\ misfit b p o old).
  Lemma part_reads p b o q s h old : part_plain id p -> small id names (part_names p) -> part_depth p <= 8 -> part_definite names p -> (forall l, p <> Bits l) ->
    placed bc q (code (part_instrs id p)) -> at_point s Dec o q [] (b ++ old) (lenN b) -> wf_bytes (b ++ old) -> opt s = false -> part_verdict p b o old s h.
  Proof.
    intros PP SM DL D NB P AT WF OP. assert (WO : wf_bytes old) by (now apply Forall_app in WF).
    destruct p as [m|l|ds n|ds ty n]; [|now destruct (NB l)| |]; cbn [part_plain part_names part_depth part_definite] in PP, SM, DL, D.
    - pose proof (member_reads host lm bc WB LI id names NM m [] q s o [] b old h PP SM ltac:(change (lenN []) with 0; lia) D P AT WF OP) as V.
      destruct V as [(d & rest & K & E)|[(F & more & d & NE & K & E)|(F & X)]].
      + left. exists (Tree d), rest. split; [exact K|exact E].
      + right. left. split; [exact F|]. left. exists more, (Tree d). split; [exact NE|]. split; [exact K|exact E].
      + right. right. left. split; [exact F|]. intros more [d| | | |] rest K; try contradiction K. exact (X more d rest K).
    - cbn [part_instrs] in P. set (c := crc_of ds) in *.
      destruct (mark_enter host lm bc WB q (k_big c) [check_instr c] s h o [] _ _ P AT OP) as (m1 & s1 & q1 & S1 & P1 & AT1 & O1).
      assert (BY : fst (part_bytes b (Check ds n) Auto o) = bytes_of (order_in (k_big c) o) (N.to_nat (crc_width c)) (checksum c b)) by reflexivity.
      set (x := fst (part_bytes b (Check ds n) Auto o)) in *. assert (LX : lenN x = crc_width c) by (rewrite BY, lenN_bytes_of; lia).
      destruct (N.ltb_spec (lenN old) (crc_width c)) as [SH|GE].
      + right. left. split; [|right; exists ds, n; auto].
        eapply fails_after; [exact S1|]. destruct AT1 as ((R1 & R2 & R3 & R4 & R5) & A1 & A2 & A3). destruct (check_at bc q1 c s1 P1 R5) as (HO & HI & LC & FC).
        assert (BP : byte_pos s1 = lenN b) by (rewrite byte_pos0 by exact R3; exact A3).
        eapply fails_now; [|apply (crc_short host lm bc WB s1 h (crc_width c) HO HI); [lia|now rewrite A2|rewrite BP, A2, lenN_app; lia|rewrite BP, A2, lenN_app; lia]]. lia.
      + set (a := firstn (N.to_nat (crc_width c)) old). set (r := skipn (N.to_nat (crc_width c)) old). assert (E : old = a ++ r) by (symmetry; apply firstn_skipn).
        assert (LA : lenN a = crc_width c) by (unfold a, lenN in *; rewrite firstn_length; lia).
        destruct (list_eq_dec N.eq_dec a x) as [EA|NA]; [left; exists Auto, r; split; [exact Logic.I|]; fold x; now rewrite <- EA|].
        right. right. right. split; [|split].
        * eapply fails_after; [exact S1|]. destruct (check_refuses host lm bc WB q1 c s1 h _ [] b old P1 AT1 WF GE) as (s' & R & _).
          { intros V. apply NA. rewrite BY, <- V. unfold sub. cbn [N.to_nat skipn]. fold a. symmetry.
            assert (LA' : length a = N.to_nat (crc_width c)) by (unfold lenN in LA; lia). rewrite <- LA'. apply bytes_val. rewrite E in WO. now apply Forall_app in WO. }
          exists 1%nat, s', h, []. intros [|fuel] FU; [lia|apply R].
        * intros more [| | | |] rest K EE; try contradiction K. fold x in EE. rewrite E, <- app_assoc in EE. apply length_apart in EE as (EE & _); [contradiction|lia].
        * exists ds, n, a, r. auto.
    - destruct PP as (TY & CT & CW), D as (NO & RP). assert (KL : id n < 65536) by (specialize (SM n (or_introl eq_refl)); lia).
      destruct (number_enter ds ty n q s h o [] (b ++ old) (lenN b) CW NO P AT OP) as (m1 & s1 & q1 & S1 & P1 & N1 & O1 & _). set (c := u_conv (num_of ds)) in *. set (o1 := order_in (u_big (num_of ds)) o) in *.
      destruct (numbers_decide o1 ty 1 TY old WO) as [(vs & rest & LV & FV & E)|[(vs & rest & LV & FV & E & SH)|(vs & v & rest & LV & FV & E & EB & V)]].
      + left. destruct vs as [|v [|? ?]]; [discriminate LV| |discriminate LV]. exists (Stored v), rest. split; [now inversion FV|]. unfold numbers in E. cbn [flat_map] in E. rewrite app_nil_r in E. exact E.
      + right. left. destruct vs; [|cbn in LV; lia]. cbn [numbers flat_map app] in E. subst rest. split.
        * eapply fails_goes; [exact S1|]. assert (C : c = CSame \/ c <> CSame) by (destruct c; auto; right; discriminate). destruct C as [EC|NC].
          -- rewrite EC in N1. cbn [trans_of] in N1. apply at_near in N1. eapply scalar_short; eauto. rewrite lenN_app. lia.
          -- specialize (CT NC). destruct N1 as (R1 & R2 & R3 & R4 & R5 & R6 & R7 & R8).
             cbn [code flat_map instr_bytes opcode refs args ins app] in P1. rewrite app_nil_r in P1. destruct (placed_key bc q1 ty (id n) _ P1 KL s1 R5) as (HO & HK & HI).
             destruct (int_width ty ltac:(lia)) as (TB & WW). destruct (type_int ty _ TB) as (w & IT & EW & _).
             assert (BP : byte_pos s1 = lenN b) by (rewrite byte_pos0 by exact R3; exact R8).
             destruct (int_short host lm bc WB s1 h ty _ HO IT HI) as (s' & X & _); [lia|cbn [i_w]; rewrite EW, BP, R7, lenN_app; lia|exact O1|]. eapply fails_now; [lia|exact X].
        * left. destruct (fill_number o1 ty old TY WO SH) as (v & more & NE & VK & EV). exists more, (Stored v). split; [exact NE|]. split; [exact VK|exact EV].
      + right. right. left. destruct vs; [|cbn in LV; lia]. cbn [numbers flat_map app] in E. split.
        * eapply fails_goes; [exact S1|]. assert (EC : c = CSame) by (destruct c; auto; exfalso; rewrite EB in CT; specialize (CT ltac:(discriminate)); lia).
          rewrite EC in N1. cbn [trans_of] in N1. apply at_near in N1. rewrite EB in P1. rewrite E in N1. eapply bool_bad; eauto.
        * intros more [| | |u|] r K; try contradiction K; [|destruct K as (K & _); contradiction]. cbn [part_ok] in K. cbn [part_bytes fst]. fold o1. rewrite EB in K |- *. intros EE.
          apply (bool_apart o1 [] v (rest ++ more) [u] r (Forall_nil _) ltac:(auto) ltac:(cbn; lia) V). unfold numbers. cbn [flat_map app]. rewrite app_nil_r. rewrite E in EE. exact EE.
  Qed.

  (** ** One part after another *)
  Definition parts_verdict (ps : list part) (b : list N) (o : endian) (old : list N) (s : st) (h : H) : Prop :=
    let ok := Forall2 part_ok ps in let bytes gs := fst (parts_bytes b ps gs o) in
    (exists gs rest, ok gs /\ old = bytes gs ++ rest) \/ (fails s h EOob /\ (short ok bytes old \/ broken_off b ps o old)) \/ (fails s h EValidation /\ bad ok bytes old) \/
    (fails s h ECrc /\ bad ok bytes old /\ damaged b ps o old).
  Lemma damaged_later b p ps g o rest (x := fst (part_bytes b p g o)) : part_ok p g -> damaged (b ++ x) ps (snd (part_bytes b p g o)) rest -> damaged b (p :: ps) o (x ++ rest).
  Proof.
    intros G (ps1 & ds & n & ps2 & gs & -> & K & X). exists (p :: ps1), ds, n, ps2, (g :: gs). split; [reflexivity|]. split; [now constructor|]. rewrite parts_cons. fold x.
    destruct (parts_bytes (b ++ x) ps1 gs (snd (part_bytes b p g o))) as [body o']. cbn [fst snd]. destruct X as (stored & r & -> & L & NE). exists stored, r. rewrite <- !app_assoc. split; [reflexivity|]. split; [exact L|].
    now rewrite app_assoc.
  Qed.
  Lemma broken_later b p ps g o rest (x := fst (part_bytes b p g o)) : part_ok p g -> broken_off (b ++ x) ps (snd (part_bytes b p g o)) rest -> broken_off b (p :: ps) o (x ++ rest).
  Proof.
    intros G (ps1 & ds & n & ps2 & gs & -> & K & stored & -> & L). exists (p :: ps1), ds, n, ps2, (g :: gs). split; [reflexivity|]. split; [now constructor|]. rewrite parts_cons. fold x. cbn [fst].
    exists stored. rewrite <- !app_assoc. auto.
  Qed.
  Lemma parts_reads ps : Forall (part_plain id) ps -> Forall (fun x => part_depth x <= 8) ps -> Forall (part_definite names) ps -> settled ps -> small id names (flat_map part_names ps) ->
    forall b o q s h old, placed bc q (code (flat_map (part_instrs id) ps)) -> at_point s Dec o q [] (b ++ old) (lenN b) -> wf_bytes (b ++ old) -> opt s = false -> parts_verdict ps b o old s h.
  Proof.
    induction 1 as [|p ps P F IH]; intros DL DF ST SM b o q s h old PC AT WF OP.
    - left. exists [], old. split; [constructor|reflexivity].
    - inversion DL as [|? ? DL1 DL2]; subst. inversion DF as [|? ? D1 D2]; subst. cbn [flat_map] in SM, PC. apply small_app in SM as (SM1 & SM2). rewrite code_app in PC. apply placed_app in PC as (P1 & P2).
      assert (ST2 : settled ps) by (destruct p; cbn [settled] in ST; [exact ST|apply ST|exact ST|exact ST]).
      assert (WO : wf_bytes old) by (now apply Forall_app in WF).
      destruct (every_givens id names ps F D2) as (zs & ZS).
      assert (NEXT : forall g rest, part_ok p g -> old = fst (part_bytes b p g o) ++ rest -> parts_verdict (p :: ps) b o old s h).
      { intros g rest G E. set (x := fst (part_bytes b p g o)) in *. rewrite E in AT, WF. destruct (go_part p g b o q s h rest P SM1 DL1 D1 G P1 AT WF OP) as (n & s1 & h1 & t & S1 & AT1 & O1). fold x in AT1.
        rewrite app_assoc, <- lenN_app in AT1. rewrite app_assoc in WF. set (o1 := snd (part_bytes b p g o)) in *.
        assert (BAD : bad (Forall2 part_ok ps) (fun gs => fst (parts_bytes (b ++ x) ps gs o1)) rest -> bad (Forall2 part_ok (p :: ps)) (fun gs => fst (parts_bytes b (p :: ps) gs o)) old).
        { intros X more gs' r K EE. inversion K as [|? g' ? gs G' GS]; subst. rewrite parts_cons in EE. cbn [fst] in EE. rewrite <- !app_assoc in EE.
          destruct (part_apart id names p b o g g' _ _ P D1 G G' EE) as (<- & E2). exact (X more gs r GS E2). }
        destruct (IH DL2 D2 ST2 SM2 (b ++ x) o1 _ s1 h1 rest P2 AT1 WF O1) as [(gs & r & K & E2)|[(F2 & [(more & gs & NE & K & E2)|BR])|[(F2 & X)|(F2 & X & DM)]]].
        - left. exists (g :: gs), r. split; [now constructor|]. rewrite parts_cons. cbn [fst]. fold x o1. now rewrite E, E2, app_assoc.
        - right. left. split; [eapply fails_goes; eauto|]. left. exists more, (g :: gs). split; [exact NE|]. split; [now constructor|]. rewrite parts_cons. cbn [fst]. fold x o1. now rewrite E, <- E2, app_assoc.
        - right. left. split; [eapply fails_goes; eauto|]. right. rewrite E. now apply broken_later.
        - right. right. left. split; [eapply fails_goes; eauto|]. now apply BAD.
        - right. right. right. split; [eapply fails_goes; eauto|]. split; [now apply BAD|]. rewrite E. now apply damaged_later. }
      assert (NB : (exists l, p = Bits l) \/ forall l, p <> Bits l) by (destruct p; eauto; right; discriminate). destruct NB as [(l & ->)|NB].
      + cbn [part_plain part_definite settled] in P, D1, ST. destruct D1 as (B & M), ST as (SO & _). destruct ps as [|p2 ps]; [contradiction|].
        destruct (N.ltb_spec (8 * lenN old) (run_width l)) as [SH|GE].
        * (* the bytes end inside the run: what follows it finds none *)
          right. left. destruct AT as ((R1 & R2 & R3 & R4 & R5) & A1 & A2 & A3).
          destruct (bits_any host lm bc WB LI id l P B q s h o [] (b ++ old) P1) as (n & s1 & h1 & t & S1 & (I1 & I2 & I3 & I4 & I5 & I6 & I7) & PO); auto.
          { unfold in_bits. rewrite R3. repeat split; auto. }
          { unfold position. rewrite lenN_app. lia. }
          unfold position in PO. rewrite lenN_app in PO.
          assert (AT1 : at_point s1 Dec o (q + lenN (code (part_instrs id (Bits l)))) [] ((b ++ old) ++ []) (lenN (b ++ old))) by (rewrite app_nil_r, lenN_app; unfold at_point, ready; repeat split; auto; lia).
          pose proof (steps_opt host lm bc _ _ _ _ _ _ WB S1 OP) as O1.
          clear R1 R2 R3 R4 R5 A1 A2 A3 I1 I2 I3 I4 I5 I6 I7 PO. inversion F as [|? ? PA FA]; subst. inversion DL2 as [|? ? DL3 DL4]; subst. inversion D2 as [|? ? D3 D4]; subst. cbn [flat_map] in SM2, P2. apply small_app in SM2 as (SM3 & SM4). rewrite code_app in P2. apply placed_app in P2 as (P3 & P4).
          destruct (every_given id names p2 PA D3) as (g2 & G2).
          split.
          -- eapply fails_after; [exact S1|].
             destruct (part_reads p2 (b ++ old) o (q + lenN (code (part_instrs id (Bits l)))) s1 h1 [] PA SM3 DL3 D3) as [(g & rest & G & E)|[(F2 & _)|[(F2 & X)|(F2 & X & _)]]]; auto.
             ++ intros l' ->. exact SO.
             ++ now rewrite app_nil_r.
             ++ exfalso. symmetry in E. apply app_eq_nil in E as (E & _). destruct p2 as [m|l'|ds n'|ds ty n'], g as [t'|vs| |raw|]; cbn [part_ok solid part_bytes fst part_definite] in *; try contradiction.
                ** exact (SO _ _ G E).
                ** apply (f_equal lenN) in E. rewrite lenN_bytes_of in E. destruct (crc_width_cases (crc_of ds)) as [X|X]; rewrite X in E; discriminate E.
                ** apply (f_equal lenN) in E. rewrite lenN_bytes_of in E. destruct PA as (TY & _). change (lenN []) with 0 in E. rewrite N2Nat.id in E. pose proof (width_cases ty TY) as WC.
                   destruct WC as [(w & sg & _ & EW & _)|[(d & _ & _ & EW & _)|EB]]; [rewrite EW in E; destruct w; discriminate E|rewrite EW in E; destruct d; discriminate E|rewrite EB in E; discriminate E].
                ** destruct D3 as (D3 & _). tauto.
             ++ exfalso. exact (X _ g2 [] G2 (eq_sym (app_nil_r _))).
             ++ exfalso. exact (X _ g2 [] G2 (eq_sym (app_nil_r _))).
          -- left. set (w := run_width l / 8 - lenN old). set (fill := repeat 0 (N.to_nat w)).
             assert (LF : lenN fill = w) by (unfold fill, lenN; rewrite repeat_length; lia).
             destruct (packed_exists id o l (old ++ fill) P B) as (vs & K & E).
             { apply wf_app; [exact WO|]. unfold fill. apply Forall_forall. intros y I. apply repeat_spec in I. subst y. reflexivity. }
             { rewrite lenN_app, LF. unfold w. lia. }
             exists (fill ++ fst (parts_bytes (b ++ fst (part_bytes b (Bits l) (Nums vs) o)) (p2 :: ps) zs (snd (part_bytes b (Bits l) (Nums vs) o)))), (Nums vs :: zs).
             split; [intros EE; apply app_eq_nil in EE as (EE & _); rewrite EE in LF; change (lenN []) with 0 in LF; unfold w in LF; lia|].
             split; [constructor; [|exact ZS]; split; [exact K|now rewrite (run_length id LE l P B 0 vs K)]|]. rewrite parts_cons. cbn [fst]. rewrite app_assoc. f_equal. cbn [part_bytes fst]. now rewrite E.
        * set (z := run_width l / 8). destruct (packed_exists id o l (firstn (N.to_nat z) old) P B) as (vs & K & E).
          { rewrite <- (firstn_skipn (N.to_nat z) old) in WO. now apply Forall_app in WO. }
          { unfold lenN in *. rewrite firstn_length. unfold z. lia. }
          apply (NEXT (Nums vs) (skipn (N.to_nat z) old)); [split; [exact K|now rewrite (run_length id LE l P B 0 vs K)]|]. cbn [part_bytes fst]. rewrite E. symmetry. apply firstn_skipn.
      + destruct (part_reads p b o q s h old P SM1 DL1 D1 NB P1 AT WF OP) as [(g & rest & G & E)|[(F2 & [(more & g & NE & K & E)|(ds & n & EP & L)])|[(F2 & X)|(F2 & X & (ds & n & stored & rest & EP & E & L & NE))]]].
        * exact (NEXT g rest G E).
        * right. left. split; [exact F2|]. left. exists (more ++ fst (parts_bytes (b ++ fst (part_bytes b p g o)) ps zs (snd (part_bytes b p g o)))), (g :: zs).
          split; [destruct more; [easy|discriminate]|]. split; [now constructor|]. rewrite parts_cons. cbn [fst]. now rewrite app_assoc, E.
        * right. left. split; [exact F2|]. right. subst p. exists [], ds, n, ps, []. split; [reflexivity|]. split; [constructor|]. exists old. split; [reflexivity|exact L].
        * right. right. left. split; [exact F2|]. intros more gs r K EE. inversion K as [|? g' ? gs' G' GS]; subst. rewrite parts_cons in EE. cbn [fst] in EE. rewrite <- app_assoc in EE. exact (X more g' _ G' EE).
        * right. right. right. split; [exact F2|]. split.
          -- intros more gs r K EE. clear EP E L NE. inversion K as [|? g' ? gs' G' GS]; subst. rewrite parts_cons in EE. cbn [fst] in EE. rewrite <- app_assoc in EE. exact (X more g' _ G' EE).
          -- subst p. exists [], ds, n, ps, []. split; [reflexivity|]. split; [constructor|]. cbn [parts_bytes app]. exists stored, rest. rewrite app_nil_r. auto.
  Qed.
End Reads.

Section Whole.
  Context {H : Type} (host : H -> request -> H * reply) (lm : libm) (id : list N -> N) (k : frame) (names : N).
  Hypothesis LI : listens host.
  Hypothesis MP : Forall (part_plain id) (fr_parts k).
  Hypothesis SM : small id names (frame_names k).
  Hypothesis NM : names <= 65536.
  Hypothesis DP : Forall (fun x => part_depth x <= 8) (fr_parts k).
  Hypothesis DF : Forall (part_definite names) (fr_parts k).
  Hypothesis ST : settled (fr_parts k).
  Let bc := code (frame_instrs id k).
  Lemma parts_skip ps gs : Forall (part_definite names) ps -> Forall2 part_ok ps gs -> Forall2 (part_skips names) ps gs.
  Proof.
    intros D K. revert D. induction K as [|p g ps gs G K IH]; intros D; [constructor|]. inversion D as [|? ? D1 D2]; subst. constructor; [|now apply IH].
    destruct p, g; cbn [part_skips part_ok part_definite] in *; auto. now apply definite_skips.
  Qed.
  Lemma frame_reads data h : wf_bytes data ->
    (exists gs rest s' h' t n, Forall2 part_ok (fr_parts k) gs /\ data = frame_bytes k gs ++ rest /\ parts_said Dec id 0 data (fr_parts k) gs t /\
       (forall fuel, (n <= fuel)%nat -> run host lm bc fuel (init Dec data) h = (Done EOk s', h', t)) /\ position s' = 8 * lenN (frame_bytes k gs)) \/
    (fails host lm bc (init Dec data) h EOob /\ (frame_incomplete k data \/ broken_off [] (fr_parts k) (frame_order k) data)) \/
    (fails host lm bc (init Dec data) h EValidation /\ frame_malformed k data) \/
    (fails host lm bc (init Dec data) h ECrc /\ frame_malformed k data /\ damaged [] (fr_parts k) (frame_order k) data).
  Proof.
    intros WD. pose proof (frame_wf id k MP) as WB. fold bc in WB. pose proof SM as SM'. apply small_app in SM' as (SP & _).
    destruct (frame_front host lm id k names MP NM Dec data h) as (n & s & q & S1 & AT & P & LB). fold bc in S1, P, LB.
    pose proof (steps_opt host lm bc _ _ _ _ _ _ WB S1 eq_refl) as OP.
    destruct (parts_reads host lm bc WB LI id names NM (fr_parts k) MP DP DF ST SP [] (frame_order k) q s h data P AT WD OP) as [(gs & rest & K & E)|[(F & X)|[(F & X)|(F & X & Y)]]].
    - left. destruct (hear_parts host LI id names NM (fr_parts k) MP DF gs K h 0 data) as (t & h' & SD & PL).
      destruct (frame_run_whole host lm id k names MP SM NM DP Dec data gs t h h' SD K (parts_skip _ _ DF K) WD) as (s' & m & R & B & PO); auto.
      { rewrite E. apply fits_dec. }
      exists gs, rest, s', h', t, m. repeat split; auto.
    - right. left. split; [eapply fails_after; eauto|exact X].
    - right. right. left. split; [eapply fails_after; eauto|exact X].
    - right. right. right. split; [eapply fails_after; eauto|]. split; [exact X|exact Y].
  Qed.
End Whole.

(** ** One reading only *)
Lemma complete_whole id names k data : Forall (part_plain id) (fr_parts k) -> Forall (part_definite names) (fr_parts k) -> frame_complete k data -> ~ broken_off [] (fr_parts k) (frame_order k) data.
Proof.
  intros PL DF (gs & rest & K & ED) (ps1 & ds & n & ps2 & gs1 & EP & K1 & stored & ES & LS). unfold frame_bytes in ED. rewrite EP in *.
  apply Forall2_app_inv_l in K as (a & b & KA & KB & ->). inversion KB as [|p0 g q0 b' KG KB' E1 E2]; subst b; clear E1 KB; try clear p0 q0. destruct g; try (cbn in KG; tauto).
  apply Forall_app in PL as (PL & _). apply Forall_app in DF as (DF & _).
  assert (LN : length ps1 = length a) by (clear -KA; induction KA; cbn; auto).
  rewrite parts_bytes_app in ED by exact LN.
  destruct (parts_bytes [] ps1 a (frame_order k)) as [x o1] eqn:EX. cbn [parts_bytes] in ED. destruct (part_bytes ([] ++ x) (Check ds n) Auto o1) as [c o2] eqn:EC.
  destruct (parts_bytes (([] ++ x) ++ c) ps2 b' o2) as [y o3]. cbn [fst] in ED. rewrite ED, <- !app_assoc in ES.
  pose proof (parts_apart id names ps1 PL DF [] (frame_order k) a gs1 (c ++ y ++ rest) stored KA K1) as X. rewrite EX in X. cbn [fst] in X. specialize (X ES) as (_ & X).
  pose proof (len_stored ([] ++ x) ds n o1) as LC. rewrite EC in LC. cbn [fst] in LC. rewrite <- X, lenN_app in LS. lia.
Qed.
Lemma complete_sound id names k data : Forall (part_plain id) (fr_parts k) -> Forall (part_definite names) (fr_parts k) -> frame_complete k data -> ~ frame_incomplete k data.
Proof.
  intros PL DF (gs & rest & K & ED) (more & gs' & NE & K' & EM). rewrite ED, <- app_assoc in EM. rewrite <- (app_nil_r (frame_bytes k gs')) in EM.
  apply (parts_apart id names _ PL DF) in EM as (_ & EM); auto. destruct rest, more; discriminate || easy.
Qed.
(** Numbers shown with something added *)
Lemma shown_add ds ty z : ~ In NOptional ds -> u_conv (num_of ds) = CAdd z -> ty <= 0x17 ->
  (- 2 ^ 63 <= least ty /\ greatest ty < 2 ^ 63 /\ - 2 ^ 63 <= least ty + z /\ greatest ty + z < 2 ^ 63)%Z -> 
  (forall raw, number_ok ty raw -> least ty <= meant ty raw <= greatest ty)%Z -> shown_always ds ty.
Proof.
  intros NI EC LT B M. split; [exact NI|]. intros raw K. rewrite EC. cbn [reports]. specialize (M raw K).
  exists (Z.to_N ((meant ty raw + z) mod 2 ^ 64)). unfold small64. generalize dependent (meant ty raw). intros x M.
  assert (P : (0 <= (x + z) mod 2 ^ 64 < 2 ^ 64)%Z) by (apply Z.mod_pos_bound; reflexivity).
  split; [change (2 ^ 64)%N with (Z.to_N (2 ^ 64)); lia|]. split; [lia|].
  unfold number. cbn [andb].
  change (2 ^ 64)%Z with 18446744073709551616%Z in *. change (2 ^ 63)%Z with 9223372036854775808%Z in *.
  change (2 ^ (8 * 8 - 1))%N with 9223372036854775808%N. change (2 ^ (8 * Z.of_N 8))%Z with 18446744073709551616%Z. destruct (_ <=? _) eqn:EL; lia.
Qed.
