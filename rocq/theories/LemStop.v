(** A refused callback ends the run. *)
From Verif Require Import Base SpecBytes LemBase ModelWord LemWord ModelBits ModelFloat ModelTrans ModelVM SpecVM LemAct.
Ltac Zify.zify_post_hook ::= Z.div_mod_to_equations.

(** After a refusal the instruction halts with ECallback, or ends as [T] allows; it asks nothing more *)
Definition ended (T : request -> stepped -> Prop) (rq : request) (a : act) : Prop :=
  match a with Cont s => T rq (SCont s) | Halt e s => T rq (SHalt e s) | _ => False end.
Fixpoint stops (T : request -> stepped -> Prop) (a : act) : Prop :=
  match a with
  | Ask rq k =>
      forall r, if r_ok r then stops T (k r)
                else (exists s, k r = Halt ECallback s) \/ ended T rq (k r)
  | _ => True
  end.

Lemma stops_mono (T T' : request -> stepped -> Prop) a :
  (forall rq x, T rq x -> T' rq x) -> stops T a -> stops T' a.
Proof.
  intros HT. induction a as [s|e s|u|rq k IH]; cbn; auto.
  intros HS r. specialize (HS r). destruct (r_ok r); [auto|]. destruct HS as [|HS]; auto.
  right. destruct (k r); cbn in *; auto.
Qed.
Lemma stops_lift {A} T (x : result A) k : (forall v, x = Ok v -> stops T (k v)) -> stops T (lift x k).
Proof. intros HK. destruct x; cbn; auto. Qed.
Lemma stops_call T s key op p h k : (forall r, r_ok r = true -> stops T (k r)) -> stops T (call s key op p h k).
Proof.
  intros HK r. destruct (r_ok r) eqn:E; [auto|]. left. eauto.
Qed.
Lemma stops_fetch T w bc p k : (forall v, stops T (k v)) -> stops T (lift (fetch w bc p) k).
Proof. intros HK. apply stops_lift. auto. Qed.

Lemma host_write_ok b p n d : p + n <= lenN b -> exists b', host_write b p n d = Ok b'.
Proof.
  intros HL. unfold host_write, splice.
  assert (HX : lenN (firstn (N.to_nat n) (map (fun x => x mod 256) d)) <= n)
    by (unfold lenN; rewrite firstn_length; lia).
  destruct (N.leb_spec (p + lenN (firstn (N.to_nat n) (map (fun x => x mod 256) d))) (lenN b)); [eauto|lia].
Qed.

Ltac stp1 :=
  match goal with
  | |- stops _ (lift (fetch _ _ _) _) => apply stops_fetch; intros [? ?]
  | |- stops _ (lift _ _) => apply stops_lift; intros ? ?
  | |- stops _ (call _ _ _ _ _ _) => apply stops_call; intros ? ?
  | |- stops _ (if ?x then _ else _) => destruct x eqn:?
  | |- stops _ (match ?x with _ => _ end) => destruct x eqn:?
  | |- stops _ (let _ := _ in _) => cbv zeta
  | |- stops _ (Cont _) => exact I
  | |- stops _ (Halt _ _) => exact I
  | |- stops _ (Undef _) => exact I
  end.
Ltac stp := repeat (cbv beta; stp1).

Section Ops.
  Variables (lm : libm) (bc : list N).

  Lemma jump_stops T s b o : stops T (jump_to bc s b o).
  Proof. unfold jump_to. stp. Qed.
  Lemma pop_stops T s k : (forall v s', stops T (k v s')) -> stops T (pop s k).
  Proof. intros HK. unfold pop. stp; auto. Qed.
  Lemma put_bits_stops T s v n : stops T (put_bits s v n Cont).
  Proof. unfold put_bits. stp. Qed.
  Lemma get_bits_stops T s n k : (forall v s', stops T (k v s')) -> stops T (get_bits s n k).
  Proof. intros HK. unfold get_bits. apply stops_lift. intros [[v c] o] _. apply HK. Qed.

  Definition falls_back (l : list (N * N)) (rq : request) (x : stepped) : Prop :=
    rq_op rq = 0x39 /\ exists n p d, rq_how rq = HRaw n /\ rq_pl rq = PBuf p d /\
    match x with
    | SCont s' => loops s' = (ip s', n) :: l /\ cur s' = p
    | SHalt e _ => e = EOob /\ lenN l = 8
    | SUndef _ => False
    end.
  Lemma try_bulk_stops s n : lenN (loops s) <= 8 ->
    stops (falls_back (loops s)) (try_bulk bc s n (fun s => loop_push s n)).
  Proof.
    intros HL.
    assert (HP : stops (falls_back (loops s)) (loop_push s n)) by (unfold loop_push; stp).
    unfold try_bulk.
    destruct (n =? 0); [auto|]. destruct (lenN bc <=? ip s + 3); [auto|].
    apply stops_lift; intros nx _. apply stops_lift; intros af _.
    destruct (_ && _); [|auto].
    apply stops_lift; intros k0 _. apply stops_lift; intros k1 _. cbv zeta.
    destruct (N.ltb_spec (dlen s) (cur s + n)) as [_|HD]; [auto|].
    apply stops_lift; intros l _. cbn [stops]. intros r.
    destruct (host_write_ok (buf s) (cur s) n (r_bytes r) HD) as [b' ->]. cbn [lift].
    destruct (r_ok r); [exact I|]. right. unfold loop_push, arr_push, max_loop_depth.
    change (loops (set_buf s b')) with (loops s).
    destruct (N.leb_spec 8 (lenN (loops s))).
    - cbn [ended]. split; [reflexivity|]. exists n, (cur s), l. split; [reflexivity|]. split; [reflexivity|].
      split; [reflexivity|]. lia.
    - destruct (N.ltb_spec (lenN (loops s)) 8); [|lia]. cbn [lift ended].
      split; [reflexivity|]. exists n, (cur s), l. split; [reflexivity|]. split; [reflexivity|].
      split; reflexivity.
  Qed.
  Lemma enter_array_stops l s n : lenN l <= 8 -> l = loops s -> stops (falls_back l) (enter_array bc s n).
  Proof.
    intros HL ->. unfold enter_array. destruct (0 <? n); [now apply try_bulk_stops|exact I].
  Qed.
  Definition skipped (s : st) (rq : request) (x : stepped) : Prop :=
    md s = Enc /\ opt s = true /\ exists ty mx, rq_how rq = HString ty mx /\
    exists s', x = SCont s' /\ buf s' = buf s /\ cur s' = cur s /\ boff s' = boff s /\ opt s' = false.

  Lemma str_null_stops s : stops (skipped s) (str_null bc s).
  Proof.
    unfold str_null. apply stops_fetch; intros [key p]. apply stops_fetch; intros [mx p'].
    cbv zeta. change (md (set_ip s p')) with (md s). destruct (md s) eqn:M.
    - cbn [stops]. intros r. destruct (r_ok r); [stp|]. change (opt (set_ip s p')) with (opt s).
      destruct (opt s) eqn:O; [|left; eauto]. right. cbn [ended].
      split; [auto|split; [auto|]]. eexists _, _. split; [reflexivity|]. eexists. split; [reflexivity|].
      split; [reflexivity|]. split; [reflexivity|]. split; reflexivity.
    - stp.
  Qed.
  Lemma str_pre_stops s op w : stops (skipped s) (str_pre bc s op w).
  Proof.
    unfold str_pre. apply stops_fetch; intros [key p].
    cbv zeta. change (md (set_ip s p)) with (md s). destruct (md s) eqn:M.
    - cbn [stops]. intros r. destruct (r_ok r); [stp|]. change (opt (set_ip s p)) with (opt s).
      destruct (opt s) eqn:O; [|left; eauto]. right. cbn [ended].
      split; [auto|split; [auto|]]. eexists _, _. split; [reflexivity|]. eexists. split; [reflexivity|].
      split; [reflexivity|]. split; [reflexivity|]. split; reflexivity.
    - stp.
  Qed.

  Lemma io_scalar_stops T s op w ew eop tw fw : stops T (io_scalar bc s op w ew eop tw fw).
  Proof. unfold io_scalar. stp. Qed.
  Lemma raw_stops T s : stops T (raw_bytes bc s).
  Proof.
    unfold raw_bytes. apply stops_fetch; intros [key p]. apply stops_fetch; intros [n p'].
    cbv zeta. change (dlen (set_ip s p')) with (dlen s). change (cur (set_ip s p')) with (cur s).
    change (buf (set_ip s p')) with (buf s).
    destruct (N.ltb_spec (dlen s) (cur s + n)) as [_|HD]; [exact I|].
    apply stops_lift; intros l _. cbn [stops]. intros r.
    destruct (host_write_ok (buf s) (cur s) n (r_bytes r) HD) as [b' ->]. cbn [lift].
    destruct (r_ok r); [exact I|]. left. eauto.
  Qed.

  Definition tolerates (op : N) (s : st) (rq : request) (x : stepped) : Prop :=
    (0x30 <= op <= 0x33 /\ skipped s rq x) \/
    ((op = 0x34 \/ op = 0x35 \/ op = 0x36 \/ op = 0x37 \/ op = 0x3B) /\ falls_back (loops s) rq x).

  Lemma classify_inv op :
    match classify op with
    | CStrNull => op = 0x30 | CStrPre _ => 0x31 <= op <= 0x33
    | CArrPre _ => 0x35 <= op <= 0x37 | CArrFixed => op = 0x34 | CArrDyn => op = 0x3B
    | _ => True
    end.
  Proof.
    assert (D : op < 256 \/ 256 <= op) by lia. destruct D as [D|D].
    - assert (A : forallb (fun op => match classify op with
        | CStrNull => op =? 0x30 | CStrPre _ => (0x31 <=? op) && (op <=? 0x33)
        | CArrPre _ => (0x35 <=? op) && (op <=? 0x37) | CArrFixed => op =? 0x34 | CArrDyn => op =? 0x3B
        | _ => true end) (map N.of_nat (seq 0 256)) = true) by (vm_compute; reflexivity).
      rewrite forallb_forall in A. specialize (A op).
      assert (HI : In op (map N.of_nat (seq 0 256))).
      { apply in_map_iff. exists (N.to_nat op). split; [lia|]. apply in_seq. lia. }
      specialize (A HI). destruct (classify op); auto; lia.
    - destruct op as [|p]; [lia|].
      do 8 (destruct p as [p|p|]; try lia; try exact I).
  Qed.

  Lemma exec_stops op s : lenN (loops s) <= 8 -> stops (tolerates op s) (exec_op lm bc op s).
  Proof.
    intros HL. unfold exec_op. pose proof (classify_inv op) as HC.
    destruct (classify op) eqn:EC; try exact I.
    all: try (unfold dup_op, emit, const_write, const_check, enum_check, range_check, scale_lin, trans_poly, trans_spline,
      trans_int, io_bool, align_pad, arr_eof, arr_end, load_ctx, store_ctx, push, pop; stp; fail).
    - unfold crc_op. stp.
    - apply io_scalar_stops.
    - apply io_scalar_stops.
    - unfold io_bit_u. stp; [apply put_bits_stops|]. apply get_bits_stops. intros. stp.
    - unfold io_bit_i. stp; [apply put_bits_stops|]. apply get_bits_stops. intros. stp.
    - unfold io_bit_bool. stp; [apply put_bits_stops|]. apply get_bits_stops. intros. stp.
    - unfold align_pad. stp. apply put_bits_stops.
    - unfold align_fill. stp; [apply put_bits_stops|]. apply get_bits_stops. intros. stp.
    - apply (stops_mono (skipped s)); [|apply str_null_stops]. intros rq x HR. left. split; [lia|auto].
    - apply (stops_mono (skipped s)); [|apply str_pre_stops]. intros rq x HR. left. split; [lia|auto].
    - unfold arr_pre. stp; (apply (stops_mono (falls_back (loops s)));
        [intros rq x HR; right; split; [lia|exact HR]|apply enter_array_stops; [exact HL|reflexivity]]).
    - unfold arr_fixed. stp; (apply (stops_mono (falls_back (loops s)));
        [intros rq x HR; right; split; [lia|exact HR]|apply enter_array_stops; [exact HL|reflexivity]]).
    - unfold arr_dynamic. stp; (apply (stops_mono (falls_back (loops s)));
        [intros rq x HR; right; split; [lia|exact HR]|apply enter_array_stops; [exact HL|reflexivity]]).
    - apply raw_stops.
    - unfold switch_op. stp. apply jump_stops.
    - unfold switch_table. stp; apply jump_stops.
    - unfold jump_if_not. stp. apply pop_stops. intros. stp. apply jump_stops.
    - unfold jump_op. stp. apply jump_stops.
    - unfold bin_op. apply pop_stops; intros. apply pop_stops; intros. unfold push. stp.
    - unfold un_op. apply pop_stops; intros. unfold push. stp.
  Qed.

  Lemma step_stops s : lenN (loops s) <= 8 -> boff s < 8 ->
    stops (carries_on bc s) (step lm bc s).
  Proof.
    intros HL HB. unfold step. apply stops_lift. intros op E.
    assert (EO : op = opcode_at bc s).
    { rewrite mem_eq in E. unfold opcode_at.
      destruct (ip s <? lenN bc); inversion E; auto. }
    set (s1 := align op (set_ip s (ip s + 1))).
    assert (A : md s1 = md s /\ opt s1 = opt s /\ buf s1 = buf s /\ loops s1 = loops s)
      by (unfold s1, align; destruct (_ && _); repeat split).
    assert (B : 0x30 <= op <= 0x33 -> cur s1 = byte_pos s /\ boff s1 = 0).
    { intros HO. unfold s1, align. replace (aligns op) with true
        by (unfold aligns; rewrite (proj2 (N.leb_le 0x30 op)), (proj2 (N.leb_le op 0x3F)) by lia;
            now rewrite orb_true_r).
      change (boff (set_ip s (ip s + 1))) with (boff s). cbn [andb].
      destruct (N.eqb_spec (boff s) 0) as [HZ|HZ]; cbn [negb]; unfold byte_pos, position;
        unfold set_boff, set_cur, set_ip; cbn [cur boff]; lia. }
    destruct A as (A1 & A2 & A3 & A4).
    apply (stops_mono (tolerates op s1)); [|apply exec_stops; now rewrite A4].
    intros rq x [[HO (H1 & H2 & ty & mx & H3 & s' & H4 & H5 & H6 & H7 & H8)]|[HO (H1 & n & p & d & H2 & H3 & H4)]].
    - left. destruct (B HO) as [B1 B2]. split; [congruence|]. split; [congruence|]. split; [congruence|].
      exists s'. split; [auto|]. split; [congruence|]. split; [|auto]. unfold byte_pos, position in *. lia.
    - right. split; [rewrite <- EO; lia|]. exists n, p, d. split; [|].
      { destruct rq; cbn in *; subst; reflexivity. } rewrite A4 in H4. exact H4.
  Qed.
End Ops.

(** ** Runs *)
Section Runs.
  Context {H : Type} (host : H -> request -> H * reply) (lm : libm) (bc : list N).

  Lemma interp_stops T a : stops T a -> forall h x h' t1 rq r t2,
    interp host a h = (x, h', t1 ++ (rq, r) :: t2) -> r_ok r = false ->
    t2 = [] /\ ((exists s, x = SHalt ECallback s) \/ T rq x).
  Proof.
    induction a as [s|e s|u|rq0 k IH]; intros HS h x h' t1 rq r t2; cbn [interp].
    1-3: intros X; inversion X as [[X1 X2 X3]]; destruct t1; discriminate.
    destruct (host h rq0) as [h1 r0]. destruct (interp host (k r0) h1) as [[x1 h2] t] eqn:EI.
    intros X HR. cbn [stops] in HS. specialize (HS r0).
    destruct t1 as [|e t1]; cbn [app] in X; inversion X; subst.
    - rewrite HR in HS. destruct HS as [[s HS]|HS].
      + rewrite HS in EI. inversion EI; subst. split; [auto|]. left. eauto.
      + destruct (k r); cbn [ended] in HS; try contradiction; cbn [interp] in EI; inversion EI; subst; auto.
    - destruct (r_ok r0) eqn:E0.
      + exact (IH r0 HS _ _ _ _ _ _ _ EI HR).
      + exfalso. destruct HS as [[s HS]|HS].
        * rewrite HS in EI. inversion EI. destruct t1; discriminate.
        * destruct (k r0); cbn [ended] in HS; try contradiction; cbn [interp] in EI; inversion EI; destruct t1; discriminate.
  Qed.

  Lemma refusal (I : st -> Prop) :
    (forall s s' h h' t, I s -> ip s < lenN bc -> interp host (step lm bc s) h = (SCont s', h', t) -> I s') ->
    (forall s, I s -> lenN (loops s) <= 8 /\ boff s < 8) ->
    forall fuel s h o h' t1 rq r t2, I s ->
    run host lm bc fuel s h = (o, h', t1 ++ (rq, r) :: t2) -> r_ok r = false ->
    (t2 = [] /\ exists s', o = Done ECallback s') \/
    exists s1 h1 x h2 u, reaches host lm bc s h s1 h1 /\ ip s1 < lenN bc /\
      interp host (step lm bc s1) h1 = (x, h2, u ++ [(rq, r)]) /\ carries_on bc s1 rq x.
  Proof.
    intros HI HB. induction fuel; intros s h o h' t1 rq r t2 HS; cbn [run].
    { intros X; inversion X. destruct t1; discriminate. }
    destruct (N.leb_spec (lenN bc) (ip s)) as [_|HL].
    { intros X; inversion X. destruct t1; discriminate. }
    destruct (interp host (step lm bc s) h) as [[x h1] u] eqn:EI.
    destruct (HB s HS) as [HB1 HB2]. pose proof (step_stops lm bc s HB1 HB2) as HT.
    assert (HC : forall u1 u2, u = u1 ++ (rq, r) :: u2 -> r_ok r = false ->
      u2 = [] /\ ((exists s', x = SHalt ECallback s') \/ carries_on bc s rq x)).
    { intros u1 u2 -> HR. exact (interp_stops _ _ HT _ _ _ _ _ _ _ EI HR). }
    assert (HE : forall u1, u = u1 ++ [(rq, r)] -> carries_on bc s rq x ->
      exists s1 h2 x0 h3 u0, reaches host lm bc s h s1 h2 /\ ip s1 < lenN bc /\
      interp host (step lm bc s1) h2 = (x0, h3, u0 ++ [(rq, r)]) /\ carries_on bc s1 rq x0).
    { intros u1 -> HD. exists s, h, x, h1, u1. split; [constructor|]. split; [lia|]. split; auto. }
    destruct x as [s'|e s'|ub].
    - destruct (run host lm bc fuel s' h1) as [[o2 h2] v] eqn:ER. intros X HR. inversion X as [[X1 X2 X3]]. subst o2 h2.
      assert (HD : (exists u2, u = t1 ++ (rq, r) :: u2) \/ (exists v1, v = v1 ++ (rq, r) :: t2)).
      { clear - X3. revert t1 X3. induction u as [|e u IH]; intros t1 X3; cbn [app] in X3; [eauto|].
        destruct t1 as [|e1 t1]; cbn [app] in X3; injection X3 as X4 X5; subst; [left; eexists; reflexivity|].
        destruct (IH _ X5) as [[u2 ->]|]; [left; eexists; reflexivity|auto]. }
      destruct HD as [[u2 HD]|[v1 HD]].
      + destruct (HC _ _ HD HR) as [-> [[s2 HX]|HX]]; [discriminate|]. right. eauto.
      + subst v. destruct (IHfuel _ _ _ _ _ _ _ _ (HI _ _ _ _ _ HS HL EI) ER HR) as [|(s1 & h2 & x0 & h3 & u0 & A & B)]; auto.
        right. exists s1, h2, x0, h3, u0. split; [|auto]. eapply reaches_trans; [|exact A].
        eapply reach_step; [constructor|exact HL|exact EI].
    - intros X HR. inversion X; subst. destruct (HC _ _ eq_refl HR) as [-> [[s2 HX]|HX]].
      + inversion HX; subst. left. split; eauto.
      + right. eauto.
    - intros X HR. inversion X; subst. destruct (HC _ _ eq_refl HR) as [-> [[s2 HX]|HX]]; [discriminate|]. right. eauto.
  Qed.
End Runs.
