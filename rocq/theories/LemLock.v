(** Encoding and decoding the result run in lock step. *)
From Coq Require Import Floats.SpecFloat.
From Verif Require Import Base SpecBytes LemBase ModelWord LemWord ModelBits LemBits ModelFloat ModelTrans ModelCrc ModelVM SpecVM SpecMsg
  LemAct LemSafe LemRun LemSafety LemWire LemInstr LemField LemCheck LemStr LemArr LemStop LemTerm LemPrefix.
Ltac Zify.zify_post_hook ::= Z.div_mod_to_equations.

(** The calls of an instruction that goes on to [s'] *)
Fixpoint pathc (a : act) (t : list event) (s' : st) : Prop :=
  match a with
  | Cont s => t = [] /\ s' = s
  | Ask rq k => exists r t', t = (rq, r) :: t' /\ pathc (k r) t' s'
  | _ => False
  end.
Lemma interp_path {H} (host : H -> request -> H * reply) a : forall h s' h' t,
  interp host a h = (SCont s', h', t) -> pathc a t s'.
Proof.
  induction a as [s|e s|u|rq k IH]; cbn [interp pathc]; intros h s' h' t X; try discriminate.
  - inversion X; auto.
  - destruct (host h rq) as [h1 r]. destruct (interp host (k r) h1) as [[x h2] t2] eqn:E. inversion X; subst. eauto.
Qed.
Lemma path_lift {A} (x : result A) k t s' : pathc (lift x k) t s' -> exists v, x = Ok v /\ pathc (k v) t s'.
Proof. destruct x; cbn [lift pathc]; [eauto|tauto]. Qed.
Lemma path_call s key op p h k t s' : pathc (call s key op p h k) t s' ->
  exists r t', t = (ask key op p h, r) :: t' /\ r_ok r = true /\ pathc (k r) t' s'.
Proof. intros (r & t' & -> & X). cbn beta in X. destruct (r_ok r) eqn:E; [eauto|contradiction]. Qed.

(** A decoding action that goes on to [s'] while its calls tell [t] *)
Inductive follow : act -> list event -> st -> Prop :=
| fo_done s : follow (Cont s) [] s
| fo_ask rq k rq0 r0 t s' : tells rq0 r0 rq -> (forall r, alike rq0 r0 rq r -> follow (k r) t s') ->
    follow (Ask rq k) ((rq0, r0) :: t) s'
| fo_const rq k t s' : rq_how rq = HConst -> (forall r, r_ok r = true -> r_bytes r = [] -> follow (k r) t s') ->
    follow (Ask rq k) t s'.
Lemma follow_call s key op p h k rq0 r0 t s' : r_ok r0 = true -> tells rq0 r0 (ask key op p h) ->
  (forall r, alike rq0 r0 (ask key op p h) r -> follow (k r) t s') -> follow (call s key op p h k) ((rq0, r0) :: t) s'.
Proof. intros HR HT HK. apply fo_ask; [exact HT|]. intros r HA. rewrite (proj1 HA), HR. now apply HK. Qed.
Lemma follow_interp {G} (host2 : G -> request -> G * reply) like a t s' : cooperates host2 like -> follow a t s' ->
  forall g more, like (t ++ more) g ->
  exists g' u, interp host2 a g = (SCont s', g', u) /\ reports t u /\ like more g'.
Proof.
  intros [C1 C2]. induction 1 as [s|rq k rq0 r0 t s' HT HK IH|rq k t s' HH HK IH]; intros g more HL.
  - exists g, []. split; [reflexivity|]. split; [constructor|exact HL].
  - cbn [interp]. destruct (host2 g rq) as [g1 r] eqn:E. destruct (C1 _ _ _ _ _ _ _ HL HT E) as [HA HL'].
    destruct (IH r HA g1 more HL') as (g' & u & X & R & L). rewrite X. eexists. eexists. split; [reflexivity|]. split; [|exact L].
    now constructor.
  - cbn [interp]. destruct (host2 g rq) as [g1 r] eqn:E. destruct (C2 _ _ _ _ _ HL HH E) as (HA & HB & HL').
    destruct (IH r HA HB g1 more HL') as (g' & u & X & R & L). rewrite X. eexists. eexists. split; [reflexivity|]. split; [|exact L].
    now constructor.
Qed.

(** A number compared with itself *)
Lemma SFsub_self pr em x : SFsub pr em x x = S754_zero false \/ SFsub pr em x x = S754_zero true \/ SFsub pr em x x = S754_nan.
Proof.
  destruct x as [s|s| |s m e]; cbn [SFsub]; auto.
  - destruct s; auto.
  - destruct s; auto.
  - rewrite Z.sub_diag. auto.
Qed.
Lemma fdec_low f x n : n = f_mw f + f_ew f + 1 -> fdec f (x mod 2 ^ n) = fdec f x.
Proof.
  intros ->. unfold fdec.
  assert (A : (x mod 2 ^ (f_mw f + f_ew f + 1)) mod 2 ^ f_mw f = x mod 2 ^ f_mw f).
  { apply N.bits_inj. intros k. destruct (N.lt_ge_cases k (f_mw f)).
    - rewrite !N.mod_pow2_bits_low; auto; lia.
    - now rewrite !N.mod_pow2_bits_high by auto. }
  assert (B : (x mod 2 ^ (f_mw f + f_ew f + 1) / 2 ^ f_mw f) mod 2 ^ f_ew f = (x / 2 ^ f_mw f) mod 2 ^ f_ew f).
  { apply N.bits_inj. intros k. destruct (N.lt_ge_cases k (f_ew f)).
    - rewrite !(N.mod_pow2_bits_low _ (f_ew f)) by auto. rewrite !N.div_pow2_bits. rewrite N.mod_pow2_bits_low; auto. lia.
    - now rewrite !(N.mod_pow2_bits_high _ (f_ew f)) by auto. }
  assert (C : N.odd (x mod 2 ^ (f_mw f + f_ew f + 1) / 2 ^ (f_mw f + f_ew f)) = N.odd (x / 2 ^ (f_mw f + f_ew f))).
  { rewrite <- !N.bit0_odd, !N.div_pow2_bits. rewrite N.mod_pow2_bits_low; auto. lia. }
  rewrite A, B, C. reflexivity.
Qed.
Lemma fsub_self32 a : fsub F32 a (a mod 2 ^ 32) = 0 \/ fsub F32 a (a mod 2 ^ 32) = 2 ^ 31 \/ fsub F32 a (a mod 2 ^ 32) = 0x7FC00000.
Proof.
  unfold fsub, fop2. rewrite (fdec_low F32 a 32) by reflexivity.
  destruct (SFsub_self (f_prec F32) (f_emax F32) (fdec F32 a)) as [X|[X|X]]; rewrite X; vm_compute; auto.
Qed.
Lemma fsub_self64 a : fsub F64 a (a mod 2 ^ 64) = 0 \/ fsub F64 a (a mod 2 ^ 64) = 2 ^ 63 \/ fsub F64 a (a mod 2 ^ 64) = 0x7FF8000000000000.
Proof.
  unfold fsub, fop2. rewrite (fdec_low F64 a 64) by reflexivity.
  destruct (SFsub_self (f_prec F64) (f_emax F64) (fdec F64 a)) as [X|[X|X]]; rewrite X; vm_compute; auto.
Qed.
Lemma classify_ops op :
  match classify op with
  | CBitU => op = 0x20 | CBitI => op = 0x21 | CBitBool => op = 0x22 | CAlignPad => op = 0x23 | CEmit => op = 0x65
  | CInt ty => int_type op = Some ty | CFloat f64 => op = (if f64 then 0x19 else 0x18)
  | CArrPre _ => 0x35 <= op <= 0x37
  | _ => True
  end.
Proof.
  assert (D : op < 256 \/ 256 <= op) by lia. destruct D as [D|D].
  - assert (A : Forall (fun op => match classify op with
      | CBitU => op = 0x20 | CBitI => op = 0x21 | CBitBool => op = 0x22 | CAlignPad => op = 0x23 | CEmit => op = 0x65
      | CInt ty => int_type op = Some ty | CFloat f64 => op = (if f64 then 0x19 else 0x18)
      | CArrPre _ => 0x35 <= op <= 0x37
      | _ => True end) (map N.of_nat (seq 0 256))).
    { set (P := fun op => _). cbv [map seq N.of_nat Pos.of_succ_nat Pos.succ]. repeat (apply Forall_cons; [unfold P; cbv [classify int_type]; try reflexivity; try exact I; try lia|]). apply Forall_nil. }
    rewrite Forall_forall in A. apply A. apply in_map_iff. exists (N.to_nat op). split; [lia|]. apply in_seq. lia.
  - destruct op as [|q]; [lia|]. do 8 (destruct q as [q|q|]; try lia; try exact I).
Qed.

Section Lock.
  Variables (lm : libm) (bc : list N) (F : list N).
  Hypothesis WB : wf_bytes bc.
  Hypothesis WF : wf_bytes F.

  Definition turned (s : st) : st := mkst Dec F (ip s) (cur s) (boff s) (en s) (tr s) (opt s) (loops s) (stk s).
  (** [F] is what the buffer will be in the end *)
  Definition ends_as (s : st) : Prop :=
    wf_bytes (buf s) /\ lenN (buf s) = lenN F /\ boff s < 8 /\ forall j, j < position s -> sbit (en s) F j = sbit (en s) (buf s) j.

  Lemma ends_byte s i : ends_as s -> i < cur s -> nthN F i = nthN (buf s) i.
  Proof.
    intros (W & L & B & A) HI. apply (bytes_sbit (en s)); auto. intros j HJ. apply A. unfold position. lia.
  Qed.
  Lemma ends_word s w p : ends_as s -> p + wbytes w <= cur s -> cur s <= lenN F ->
    read_word w (en s) F p = read_word w (en s) (buf s) p.
  Proof.
    intros E HP HC. destruct (E) as (W & L & B & A). rewrite !read_word_eq by auto. rewrite L.
    destruct (N.leb_spec (p + wbytes w) (lenN F)); [|reflexivity]. do 2 f_equal. apply sub_ext; try lia. intros i HI. apply (ends_byte s); auto; lia.
  Qed.
  Lemma ends_sub s p n : ends_as s -> p + n <= cur s -> cur s <= lenN F -> sub F p n = sub (buf s) p n.
  Proof.
    intros E HP HC. destruct (E) as (W & L & B & A). apply sub_ext; try lia. intros i HI. apply (ends_byte s); auto; lia.
  Qed.

  (** A word written by the encoder is read back from the result *)
  Lemma wrote_back w e b p v b' s' : wf_bytes b -> write_word w e b p v = Ok b' -> ends_as s' -> buf s' = b' -> en s' = e ->
    p + wbytes w <= cur s' -> cur s' <= lenN F -> read_word w e F p = Ok (v mod 2 ^ (8 * wbytes w)).
  Proof.
    intros W HW E EB EE HC HL. destruct (E) as (W' & L & _). pose proof HW as HW2. rewrite write_word_eq in HW.
    destruct (N.leb_spec (p + wbytes w) (lenN b)); [|discriminate].
    destruct (word_round_trip w e b p v W H) as (b2 & X & Y). rewrite HW2 in X. injection X as <-.
    rewrite <- Y, <- EE, <- EB. apply ends_word; auto.
  Qed.
  Lemma wrote_below w e b p v b' i : write_word w e b p v = Ok b' -> i < p -> nthN b' i = nthN b i.
  Proof.
    rewrite write_word_eq. destruct (N.leb_spec (p + wbytes w) (lenN b)); [|discriminate]. intros [= <-] HI.
    rewrite nthN_put by (rewrite lenN_bytes_of, <- wbytes_nat; auto). destruct (N.leb_spec p i); [lia|reflexivity].
  Qed.
  Lemma wrote_len w e b p v b' : write_word w e b p v = Ok b' -> lenN b' = lenN b /\ p + wbytes w <= lenN b.
  Proof.
    rewrite write_word_eq. destruct (N.leb_spec (p + wbytes w) (lenN b)); [|discriminate]. intros [= <-]. split; auto.
    apply lenN_put. rewrite lenN_bytes_of, <- wbytes_nat; auto.
  Qed.
  (** Writing what is there changes nothing *)
  Lemma rewrites w e p v : p + wbytes w <= lenN F -> read_word w e F p = Ok v -> write_word w e F p v = Ok F.
  Proof.
    intros HL HR. rewrite read_word_eq in HR by auto. rewrite write_word_eq. destruct (N.leb_spec (p + wbytes w) (lenN F)); [|lia].
    injection HR as <-. f_equal. set (l := sub F p (wbytes w)).
    assert (LL : lenN l = wbytes w) by (unfold l; apply lenN_sub; auto).
    assert (E : bytes_of e (nbytes w) (val_of e l) = l).
    { replace (nbytes w) with (length l) by (unfold lenN in LL; rewrite wbytes_nat in LL; lia). apply bytes_val. apply wf_sub. auto. }
    rewrite E. apply nthN_ext; [apply lenN_put; lia|]. intros i HI. rewrite nthN_put by lia.
    destruct (N.leb_spec p i), (N.ltb_spec i (p + lenN l)); cbn [andb]; auto. unfold l. rewrite nthN_sub by lia. f_equal. lia.
  Qed.
  Lemma fetch_bound w p v q : fetch w bc p = Ok (v, q) -> v < 2 ^ (8 * wbytes w).
  Proof. rewrite fetch_ok. intros [= X]. now apply (fetchv_bound w bc p v q). Qed.

  Definition fair (ev : event) : Prop := comes_back ev /\ (r_ok (snd ev) = false -> r_bytes (snd ev) = []).

  Ltac rs := cbn [md buf ip cur boff en tr opt loops stk set_buf set_ip set_cur set_boff set_en set_tr set_opt set_loops set_stk] in *.
  Ltac tell := (split; [reflexivity|]; split; [reflexivity|]; split; [reflexivity|]; cbn [rq_how rq_op rq_pl ask]; try reflexivity).
  Ltac pa1 :=
    match goal with
    | H : pathc (Halt _ _) _ _ |- _ => destruct H
    | H : pathc (Undef _) _ _ |- _ => destruct H
    | H : pathc (lift ?x _) _ _ |- _ => let v := fresh "v" in let E := fresh "E" in let Q := fresh "PQ" in
        destruct (path_lift _ _ _ _ H) as (v & E & Q); clear H; try rename Q into PQ; try rewrite E; cbn [lift]
    | H : pathc (let '(_, _) := ?x in _) _ _ |- _ => destruct x
    | H : pathc (call _ _ _ _ _ _) _ _ |- _ => let r := fresh "r" in let t := fresh "t" in let R := fresh "R" in let Q := fresh "PQ" in
        let E := fresh "ET" in destruct (path_call _ _ _ _ _ _ _ _ H) as (r & t & E & R & Q); clear H; try rename Q into PQ; subst
    | H : pathc (if ?x then _ else _) _ _ |- _ => destruct x eqn:?
    | H : pathc (match ?x with _ => _ end) _ _ |- _ => destruct x eqn:?
    end.
  Ltac fin1 := match goal with
    | H : pathc (Cont _) _ _ |- follow (Cont _) _ _ => let A := fresh in let B := fresh in destruct H as [A B]; subst; apply fo_done
    | |- follow (call _ _ _ _ _ _) _ _ => apply follow_call; [assumption|tell|let r := fresh "r" in let A := fresh "A" in intros r A;
        lazymatch type of A with
        | alike (ask _ _ (PInt ?w ?v) HQuery) ?r0 _ _ =>
            let X := fresh "X" in assert (X : got w v r = got w v r0) by (destruct A as (_ & _ & A); exact A); rewrite X
        | _ => idtac
        end]
    end.
  Ltac pa := repeat (cbv beta zeta; rs; first [fin1 | pa1]).

  Section Ops.
    Variables (b : list N) (i c o : N) (e : endian) (t : trans) (p : bool) (l : list (N * N)) (k : list N).
    Hypothesis Wb : wf_bytes b.
    Hypothesis L1 : lenN b = lenN F.
    Hypothesis O8 : o < 8.
    Notation s1 := (mkst Enc b i c o e t p l k).
    Notation s2 := (mkst Dec F i c o e t p l k).

    Lemma scalar_lock op w ew eop tw fw tr s' :
      (forall x, stored_as op t x = tw x) -> (forall x, shown_as op t x = fw x) -> field_bytes op = wbytes w ->
      (t = TNone -> ew = w /\ forall x, tw x = Ok x /\ fw x = Ok x) ->
      Forall fair tr -> pathc (io_scalar bc s1 op w ew eop tw fw) tr s' -> ends_as s' -> position s' <= 8 * lenN F ->
      follow (io_scalar bc s2 op w ew eop tw fw) tr (turned s').
    Proof.
      intros HS HF HB HT FT P E PE. unfold io_scalar in *. unfold dlen in *. rs. pa1. destruct v as [key q]. cbv beta iota zeta in *. rs.
      rewrite L1 in PQ. pa1.
      - pa. 
      - pa1. inversion FT as [|? ? [CB _] FT' ]; subst.
        pa1. pa1. destruct PQ as [-> ->]. rs.
        unfold position in PE. rs.
        pose proof (wrote_back w e b c v v0 _ Wb E2 E eq_refl eq_refl ltac:(rs; lia) ltac:(rs; lia)) as RB.
        rewrite RB. cbn [lift]. unfold comes_back in CB. cbn [fst snd rq_how ask] in CB. rewrite HS, HB in CB.
        change (after _ r) with (got ew 0 r) in CB. specialize (CB _ E1). destruct CB as [v1 V1]. rewrite HF in V1. rewrite V1. cbn [lift].
        apply follow_call; [assumption| |intros r' A; apply fo_done].
        split; [reflexivity|]. split; [reflexivity|]. split; [reflexivity|]. cbn [rq_how rq_pl ask].
        exists ew, v1. split; [reflexivity|]. split; [reflexivity|]. unfold normalised. 
        assert (G : exists raw, stored_as op t (after (ask key eop (PInt ew 0) (HField op t)) r) = Ok raw /\ shown_as op t (raw mod 2 ^ (8 * field_bytes op)) = Ok v1).
        { exists v. rewrite HS, HF, HB. split; auto. }
        destruct t; auto. destruct (HT eq_refl) as [-> TF]. change (after _ r) with (got w 0 r).
        destruct (TF (got w 0 r)) as [T1 T2]. rewrite T1 in E1. injection E1 as <-. rewrite N.mod_small in V1; [congruence|].
        unfold got, trunc. destruct (r_val r); [apply N.mod_lt; apply N.pow_nonzero; lia|]. apply N.neq_0_lt_0. apply N.pow_nonzero; lia.
    Qed.

    Lemma bool_lock tr s' : Forall fair tr -> pathc (io_bool bc s1) tr s' -> ends_as s' -> position s' <= 8 * lenN F ->
      follow (io_bool bc s2) tr (turned s').
    Proof.
      intros FT P E PE. unfold io_bool in *. unfold dlen in *. rs. pa1. destruct v as [key q]. cbv beta iota zeta in *. rs.
      rewrite L1 in PQ. pa1.
      - pa.
      - pa1. pa1; [pa|]. pa1. destruct PQ as [-> ->]. rs. unfold position in PE. rs.
        pose proof (wrote_back ModelWord.W1 e b c _ v _ Wb E1 E eq_refl eq_refl ltac:(rs; cbn [wbytes]; lia) ltac:(rs; lia)) as RB.
        cbn [read_word] in RB. rewrite RB. cbn [lift wbytes].
        assert (G : got ModelWord.W1 0 r <= 1) by (apply N.ltb_ge; auto).
        rewrite N.mod_small by (change (2 ^ (8 * 1)) with 256; lia). rewrite Heqb1.
        apply follow_call; [assumption| |intros r' A; apply fo_done].
        split; [reflexivity|]. split; [reflexivity|]. split; [reflexivity|]. cbn [rq_how rq_pl ask].
        exists ModelWord.W1. eexists. split; [reflexivity|]. split; [reflexivity|]. reflexivity.
    Qed.

    Lemma bits_lock v n s' b' c' o' : write_bits e b c o v n = Ok (b', c', o') -> 8 * c + o + n <= 8 * lenN F ->
      ends_as s' -> buf s' = b' -> cur s' = c' -> boff s' = o' -> en s' = e ->
      8 * c' + o' = 8 * c + o + n /\ o' < 8 /\ (n <= 64 -> read_bits e F c o n = Ok (v mod 2 ^ n, c', o')).
    Proof.
      intros HW HL E <- <- <- HE. pose proof (write_bits_spec e b c o v n Wb O8) as X. cbv zeta in X. rewrite HW in X.
      rewrite L1 in X. replace (N.min n (8 * lenN F - (8 * c + o))) with n in X by lia. destruct X as (W' & O' & P' & LB & FR).
      split; [auto|]. split; [auto|]. intros HN.
      destruct (bits_round_trip e b c o v n Wb O8 HN ltac:(lia)) as (b2 & c2 & o2 & Y & _ & _ & _ & _ & _ & R).
      rewrite HW in Y. injection Y as Y1 Y2 Y3. subst b2 c2 o2.
      apply (read_bits_same e (buf s') F); auto; try lia. destruct E as (_ & _ & _ & A). rewrite HE in A.
      intros j HJ. symmetry. apply A. unfold position. lia.
    Qed.
    Lemma put_path v n tr s' : pathc (put_bits s1 v n Cont) tr s' -> 8 * c + o + n <= 8 * lenN F -> ends_as s' ->
      tr = [] /\ exists b' c' o', s' = mkst Enc b' i c' o' e t p l k /\ 8 * c' + o' = 8 * c + o + n /\ o' < 8 /\
        (n <= 64 -> read_bits e F c o n = Ok (v mod 2 ^ n, c', o')).
    Proof.
      unfold put_bits. intros P HL E. rs. pa1. destruct v0 as [[b' c'] o']. destruct PQ as [-> ->]. split; [reflexivity|].
      exists b', c', o'. split; [reflexivity|]. apply (bits_lock v n _ b' c' o' E0 HL E); reflexivity.
    Qed.
  End Ops.

  Section Ops2.
    Variables (b : list N) (i c o : N) (e : endian) (t : trans) (p : bool) (l : list (N * N)) (k : list N).
    Hypothesis Wb : wf_bytes b.
    Hypothesis L1 : lenN b = lenN F.
    Hypothesis O8 : o < 8.
    Notation s1 := (mkst Enc b i c o e t p l k).
    Notation s2 := (mkst Dec F i c o e t p l k).

    Lemma bit_u_lock tr s' : Forall fair tr -> pathc (io_bit_u bc s1) tr s' -> ends_as s' ->
      (forall n q, fetch W1 bc (snd (fetchv W2 bc i)) = Ok (n, q) -> 8 * c + o + n <= 8 * lenN F) ->
      follow (io_bit_u bc s2) tr (turned s').
    Proof.
      intros FT P E HN. unfold io_bit_u in *. rs. pa1. destruct v as [key q]. rewrite fetch_ok in E0. injection E0 as E0. rewrite E0 in HN. cbn [snd] in HN. pa1. destruct v as [n q2]. rs.
      specialize (HN _ _ E1). pa1. inversion FT as [|? ? [CB _] FT' ]; subst. unfold comes_back in CB. cbn [fst rq_how ask] in CB.
      unfold set_ip in PQ. rs. apply put_path in PQ; auto. destruct PQ as (-> & b' & c' & o' & -> & PP & O' & RR).
      unfold get_bits. rs. rewrite RR by auto. cbn [lift]. apply follow_call; [assumption| |intros r' A; apply fo_done]. tell.
    Qed.
    Lemma number_toS v : number 8 true v = toS 8 v.
    Proof. unfold number, toS. rewrite N.ltb_antisym. cbn [andb]. destruct (2 ^ (8 * 8 - 1) <=? v); reflexivity. Qed.
    Lemma bit_i_lock tr s' : Forall fair tr -> pathc (io_bit_i bc s1) tr s' -> ends_as s' ->
      (forall n q, fetch W1 bc (snd (fetchv W2 bc i)) = Ok (n, q) -> 8 * c + o + n <= 8 * lenN F) ->
      follow (io_bit_i bc s2) tr (turned s').
    Proof.
      intros FT P E HN. unfold io_bit_i in *. rs. pa1. destruct v as [key q]. rewrite fetch_ok in E0. injection E0 as E0. rewrite E0 in HN. cbn [snd] in HN. pa1. destruct v as [n q2]. rs.
      specialize (HN _ _ E1). pa1. inversion FT as [|? ? [CB _] FT' ]; subst. unfold comes_back in CB. cbn [fst rq_how ask] in CB.
      unfold set_ip in PQ. rs. apply put_path in PQ; auto. destruct PQ as (-> & b' & c' & o' & -> & PP & O' & RR).
      unfold get_bits. rs. rewrite RR by lia. cbn [lift].
      assert (G : got W8 0 r < 2 ^ 64).
      { unfold got, trunc. destruct (r_val r); [apply N.mod_lt|]; discriminate || reflexivity. }
      destruct (sign_extend_spec (toS 8 (got W8 0 r)) n CB) as (v & V1 & V2 & V3). rewrite ofZ_toS in V1 by (exact G || lia). rewrite V1. cbn [lift].
      apply follow_call; [assumption| |intros r' A; apply fo_done]. tell.
      exists v. split; [reflexivity|]. split; [exact V2|]. rewrite !number_toS. exact V3.
    Qed.
    Lemma bit_bool_lock tr s' : Forall fair tr -> pathc (io_bit_bool bc s1) tr s' -> ends_as s' ->
      8 * c + o + 1 <= 8 * lenN F -> follow (io_bit_bool bc s2) tr (turned s').
    Proof.
      intros FT P E HN. unfold io_bit_bool in *. rs. pa1. destruct v as [key q]. rs. pa1. pa1; [pa|].
      unfold set_ip in PQ. rs. apply put_path in PQ; auto. destruct PQ as (-> & b' & c' & o' & -> & PP & O' & RR).
      unfold get_bits. rs. rewrite RR by lia. cbn [lift]. 
      assert (G : got ModelWord.W1 0 r <= 1) by (apply N.ltb_ge; auto).
      rewrite N.mod_small by (change (2 ^ 1) with 2; lia). unfold trunc. rewrite N.mod_small by (change (2 ^ (8 * 1)) with 256; lia).
      apply follow_call; [assumption| |intros r' A; apply fo_done]. tell.
    Qed.
    Lemma pad_lock tr s' : pathc (align_pad bc s1) tr s' -> ends_as s' ->
      (forall n q, fetch W1 bc i = Ok (n, q) -> 8 * c + o + n <= 8 * lenN F) -> follow (align_pad bc s2) tr (turned s').
    Proof.
      intros P E HN. unfold align_pad in *. rs. pa1. destruct v as [n q]. rs. specialize (HN _ _ E0).
      unfold set_ip in PQ. rs. apply put_path in PQ; auto. destruct PQ as (-> & b' & c' & o' & -> & PP & O' & RR).
      unfold turned. rs. replace (c + (o + n) / 8) with c' by lia. replace ((o + n) mod 8) with o' by lia. apply fo_done.
    Qed.
    Lemma fill_lock tr s' : pathc (align_fill bc s1) tr s' -> ends_as s' -> 8 * c + o <= 8 * lenN F ->
      follow (align_fill bc s2) tr (turned s').
    Proof.
      intros P E HN. unfold align_fill in *. rs. pa1. destruct v as [n q]. rs. pa1.
      - apply N.ltb_lt in Heqb0. unfold set_ip in PQ. rs. apply put_path in PQ; auto; [|lia].
        destruct PQ as (-> & b' & c' & o' & -> & PP & O' & RR).
        unfold get_bits. rs. rewrite RR by lia. cbn [lift]. apply fo_done.
      - pa.
    Qed.

    Lemma text_cstr x : text (cstr x).
    Proof.
      induction x as [|y x IH]; cbn [cstr]; [constructor|]. destruct (N.eqb_spec (y mod 256) 0); constructor; auto. lia.
    Qed.
    Lemma text_got r : text (got_str r).
    Proof. unfold got_str. destruct (r_str r); [apply text_cstr|constructor]. Qed.
    Lemma cut_len max x : firstn (N.to_nat (if max <? lenN x then max else lenN x)) x = cut max x /\
      (if max <? lenN x then max else lenN x) = lenN (cut max x).
    Proof.
      rewrite lenN_cut. unfold cut. destruct (N.ltb_spec max (lenN x)).
      - split; [reflexivity|lia].
      - split; [|lia]. rewrite !firstn_all2; auto; unfold lenN in *; lia.
    Qed.
    Lemma no_write q n : q <= lenN F -> host_write F q n [] = Ok F.
    Proof.
      intros. unfold host_write. cbn [map]. rewrite firstn_nil, splice_eq. change (lenN []) with 0. rewrite N.add_0_r.
      destruct (N.leb_spec q (lenN F)); [|lia]. now rewrite put_nil.
    Qed.

    Lemma str_null_lock tr s' : Forall fair tr -> pathc (str_null bc s1) tr s' -> ends_as s' -> position s' <= 8 * lenN F ->
      follow (str_null bc s2) tr (turned s').
    Proof.
      intros FT P E PE. unfold str_null in *. unfold dlen in *. rs. pa1. destruct v as [key q]. pa1. destruct v as [max q2]. rs.
      destruct PQ as (r & t' & -> & PQ). inversion FT as [|? ? [CB _] FT' ]; subst. unfold comes_back in CB. cbn [fst snd rq_how ask] in CB.
      rewrite CB in PQ. destruct (cut_len max (got_str r)) as [C1 C2]. cbv zeta in PQ. rewrite C1, C2 in PQ. clear C1 C2.
      pose proof (text_cut max _ (text_got r)) as TX. pose proof (lenN_cut max (got_str r)) as LC.
      set (x := cut max (got_str r)) in *.
      rewrite L1 in PQ. pa1; [pa|]. apply N.ltb_ge in Heqb0. rewrite splice_eq in PQ. pa1. pa1. destruct PQ as [-> ->].
      destruct (N.leb_spec (c + lenN x) (lenN b)); [|discriminate]. injection E2 as <-.
      rewrite sto_eq, lenN_put in E3 by auto. destruct (N.ltb_spec (c + lenN x) (lenN b)); [|discriminate]. injection E3 as <-.
      assert (NF : forall j, c <= j < c + lenN x + 1 -> nthN F j = nthN (put (put b c x) (c + lenN x) [0]) j).
      { intros j HJ. apply (ends_byte _ j E). rs. lia. }
      assert (L0 : lenN [0] = 1) by reflexivity.
      assert (SF : sub F c (lenN x) = x).
      { apply nthN_ext; [apply lenN_sub; lia|]. rewrite lenN_sub by lia. intros j HJ. rewrite nthN_sub, NF by lia.
        rewrite !nthN_put; rewrite ?lenN_put; try lia.
        destruct (N.leb_spec (c + lenN x) (c + j)); [lia|]. cbn [andb].
        destruct (N.leb_spec c (c + j)), (N.ltb_spec (c + j) (c + lenN x)); cbn [andb]; try lia. f_equal. lia. }
      assert (ZF : nthN F (c + lenN x) = 0).
      { rewrite NF by lia. rewrite nthN_put by (rewrite lenN_put; lia). rewrite L0.
        destruct (N.leb_spec (c + lenN x) (c + lenN x)), (N.ltb_spec (c + lenN x) (c + lenN x + 1)); cbn [andb]; try lia.
        rewrite N.sub_diag. reflexivity. }
      destruct (N.leb_spec c (lenN F)); [|lia].
      rewrite (find_nul_hit F x); auto; try lia.
      2: { destruct (N.ltb_spec (lenN F - c) max); lia. }
      cbn [lift]. rewrite N.add_0_l. destruct (N.leb_spec (lenN F) (c + lenN x)); [lia|].
      rewrite slice_eq. destruct (N.leb_spec (c + lenN x) (lenN F)); [|lia]. cbn [lift]. rewrite SF.
      apply follow_call; [assumption| |]. { tell. exists c. reflexivity. }
      intros r' (_ & A & _). rewrite A. rs. rewrite no_write by lia. cbn [lift]. apply fo_done.
    Qed.
    Lemma str_pre_lock op w tr s' : Forall fair tr -> pathc (str_pre bc s1 op w) tr s' -> ends_as s' -> position s' <= 8 * lenN F ->
      follow (str_pre bc s2 op w) tr (turned s').
    Proof.
      intros FT P E PE. unfold str_pre in *. unfold dlen in *. rs. pa1. destruct v as [key q]. rs.
      destruct PQ as (r & t' & -> & PQ). inversion FT as [|? ? [CB _] FT' ]; subst. unfold comes_back in CB. cbn [fst snd rq_how ask] in CB.
      rewrite CB in PQ. set (max := 2 ^ (8 * wbytes w) - 1) in *. destruct (cut_len max (got_str r)) as [C1 C2]. cbv zeta in PQ. rewrite C1, C2 in PQ. clear C1 C2.
      pose proof (lenN_cut max (got_str r)) as LC. set (x := cut max (got_str r)) in *.
      rewrite L1 in PQ. pa1; [pa|]. apply N.ltb_ge in Heqb0. pa1. pa1. destruct PQ as [-> ->].
      destruct (wrote_len _ _ _ _ _ _ E1) as [LV LV2]. rewrite splice_eq in E2. rewrite LV, L1 in E2.
      destruct (N.leb_spec (c + wbytes w + lenN x) (lenN F)); [|discriminate]. injection E2 as <-.
      assert (MX : lenN x < 2 ^ (8 * wbytes w)).
      { pose proof (N.pow_nonzero 2 (8 * wbytes w)). unfold max in LC. lia. }
      clearbody max. clear Heqb0.
      assert (SF : sub F (c + wbytes w) (lenN x) = x).
      { rewrite (ends_sub _ _ _ E) by (rs; lia). rs. apply sub_put_same. lia. }
      assert (RW : read_word w e F c = Ok (lenN x)).
      { destruct (word_round_trip w e b c (lenN x) Wb LV2) as (b2 & X1 & X2). rewrite E1 in X1. injection X1 as <-.
        rewrite N.mod_small in X2 by auto.
        assert (Wv : wf_bytes v). { rewrite write_word_eq in E1. destruct (N.leb_spec (c + wbytes w) (lenN b)); [|discriminate]. injection E1 as <-. apply wf_put; auto; [apply wf_bytes_of|]. rewrite lenN_bytes_of, <- wbytes_nat; auto. }
        rewrite <- X2. rewrite !read_word_eq by auto. rewrite LV, L1. destruct (N.leb_spec (c + wbytes w) (lenN F)); [|lia]. do 2 f_equal.
        rewrite (ends_sub _ _ _ E) by (rs; lia). rs. apply sub_ext; rewrite ?lenN_put by lia; try lia. intros j HJ. rewrite nthN_put by lia.
        destruct (N.leb_spec (c + wbytes w) j); [lia|reflexivity]. }
      destruct (N.ltb_spec (lenN F) (c + wbytes w)); [lia|]. rewrite RW. cbn [lift].
      destruct (N.ltb_spec (lenN F) (c + wbytes w + lenN x)); [lia|].
      rewrite slice_eq. destruct (N.leb_spec (c + wbytes w + lenN x) (lenN F)); [|lia]. cbn [lift]. rewrite SF.
      apply follow_call; [assumption| |]. { tell. eexists. reflexivity. }
      intros r' (_ & A & _). rewrite A. rs. rewrite no_write by lia. cbn [lift]. apply fo_done.
    Qed.

    (** What a host that stored [d] into [n] bytes at [q] left there *)
    Lemma host_left q n d b' : host_write b q n d = Ok b' -> q + n <= lenN b ->
      let w := cut n (map (fun x => x mod 256) d) in
      lenN b' = lenN b /\ sub b' q n = w ++ skipn (length w) (sub b q n).
    Proof.
      unfold host_write. fold (cut n (map (fun x => x mod 256) d)). set (w := cut n (map (fun x => x mod 256) d)). intros HW HL. cbv zeta.
      assert (LW : lenN w <= n) by (unfold w; rewrite lenN_cut; lia). clearbody w.
      rewrite splice_eq in HW. destruct (N.leb_spec (q + lenN w) (lenN b)); [|discriminate]. injection HW as <-.
      split; [apply lenN_put; auto|]. pose proof (lenN_put b q w H) as LP.
      apply nthN_ext.
      - rewrite lenN_app, lenN_sub by lia. unfold lenN at 2. rewrite skipn_length. pose proof (lenN_sub b q n ltac:(lia)) as X. unfold lenN in *. lia.
      - rewrite lenN_sub by lia. intros j HJ. rewrite nthN_sub, nthN_put, nthN_app by lia.
        destruct (N.ltb_spec j (lenN w)).
        + destruct (N.leb_spec q (q + j)), (N.ltb_spec (q + j) (q + lenN w)); cbn [andb]; try lia. f_equal. lia.
        + destruct (N.leb_spec q (q + j)), (N.ltb_spec (q + j) (q + lenN w)); cbn [andb]; try lia.
          replace (length w) with (N.to_nat (lenN w)) by (unfold lenN; lia). rewrite nthN_skipn, nthN_sub by lia. f_equal. lia.
    Qed.
    Lemma bulk_lock n tr s' (kno : st -> act) : Forall fair tr ->
      (forall tr', Forall fair tr' -> pathc (kno s1) tr' s' -> follow (kno s2) tr' (turned s')) ->
      pathc (try_bulk bc s1 n kno) tr s' -> ends_as s' -> position s' <= 8 * lenN F -> follow (try_bulk bc s2 n kno) tr (turned s').
    Proof.
      intros FT HK P E PE. unfold try_bulk in *. unfold dlen in *. rs. rewrite L1 in P.
      destruct (n =? 0); [auto|]. destruct (lenN bc <=? i + 3); [auto|].
      pa1. rename v into nx. pa1. rename v into af. destruct ((nx =? 16) || (nx =? 20)) eqn:X; cbn [andb] in PQ |- *; [|auto].
      destruct (af =? 56); cbn [andb] in PQ |- *; [|auto].
      pa1. pa1. cbv zeta in *. destruct (N.ltb_spec (lenN F) (c + n)); [auto|].
      rewrite slice_eq in PQ. destruct (N.leb_spec (c + n) (lenN b)); [|lia]. cbn [lift] in PQ.
      rewrite slice_eq. destruct (N.leb_spec (c + n) (lenN F)); [|lia]. cbn [lift].
      destruct PQ as (r & t' & -> & PQ). inversion FT as [|? ? [CB CL] FT' ]; subst. cbn [snd] in CL. pa1.
      pose proof (host_left _ _ _ _ E4 ltac:(lia)) as HL. cbv zeta in HL. destruct HL as [HL1 HL2].
      destruct (r_ok r) eqn:R.
      - destruct PQ as [-> ->]. rs. apply fo_ask.
        + tell. eexists. eexists. split; [reflexivity|]. rewrite R. rewrite <- HL2.
          rewrite (ends_sub _ _ _ E) by (unfold position in PE; rs; lia). reflexivity.
        + intros r' (A1 & A2 & _). rewrite A1, A2, R, no_write by lia. cbn [lift]. apply fo_done.
      - rewrite (CL eq_refl) in E4. unfold host_write in E4. cbn [map] in E4. rewrite firstn_nil, splice_eq in E4. change (lenN []) with 0 in E4.
        rewrite N.add_0_r in E4. destruct (N.leb_spec c (lenN b)); [|lia]. rewrite put_nil in E4 by lia. injection E4 as <-.
        apply fo_ask.
        + tell. eexists. eexists. split; [reflexivity|]. rewrite R. eexists. split; [reflexivity|]. apply lenN_sub. lia.
        + intros r' (A1 & A2 & _). rewrite A1, A2, R, no_write by lia. cbn [lift]. apply HK; auto.
    Qed.
    Lemma enter_lock n tr s' : Forall fair tr -> pathc (enter_array bc s1 n) tr s' -> ends_as s' -> position s' <= 8 * lenN F ->
      follow (enter_array bc s2 n) tr (turned s').
    Proof.
      intros FT P E PE. unfold enter_array in *. destruct (0 <? n).
      - apply bulk_lock; auto. intros tr' _ Q. unfold loop_push in *. pa.
      - pa.
    Qed.
    Lemma raw_lock tr s' : Forall fair tr -> pathc (raw_bytes bc s1) tr s' -> ends_as s' -> position s' <= 8 * lenN F ->
      follow (raw_bytes bc s2) tr (turned s').
    Proof.
      intros FT P E PE. unfold raw_bytes in *. unfold dlen in *. rs. pa1. destruct v as [key q]. pa1. destruct v as [n q2]. rs. rewrite L1 in PQ.
      destruct (N.ltb_spec (lenN F) (c + n)); [destruct PQ|].
      rewrite slice_eq in PQ. destruct (N.leb_spec (c + n) (lenN b)); [|lia]. cbn [lift] in PQ.
      rewrite slice_eq. destruct (N.leb_spec (c + n) (lenN F)); [|lia]. cbn [lift].
      destruct PQ as (r & t' & -> & PQ). inversion FT as [|? ? [CB CL] FT' ]; subst. cbn [snd] in CL. pa1.
      pose proof (host_left _ _ _ _ E2 ltac:(lia)) as HL. cbv zeta in HL. destruct HL as [HL1 HL2].
      destruct (r_ok r) eqn:R; [|destruct PQ]. destruct PQ as [-> ->]. rs. apply fo_ask.
      + tell. eexists. eexists. split; [reflexivity|]. rewrite R. rewrite <- HL2.
        rewrite (ends_sub _ _ _ E) by (unfold position in PE; rs; lia). reflexivity.
      + intros r' (A1 & A2 & _). rewrite A1, A2, R, no_write by lia. cbn [lift]. apply fo_done.
    Qed.
  End Ops2.

  Section Ops3.
    Variables (b : list N) (i c o : N) (e : endian) (t : trans) (p : bool) (l : list (N * N)) (k : list N).
    Hypothesis Wb : wf_bytes b.
    Hypothesis L1 : lenN b = lenN F.
    Hypothesis O8 : o < 8.
    Notation s1 := (mkst Enc b i c o e t p l k).
    Notation s2 := (mkst Dec F i c o e t p l k).

    Lemma got_bound w r : got w 0 r < 2 ^ (8 * wbytes w).
    Proof. unfold got, trunc. destruct (r_val r); [apply N.mod_lt|apply N.neq_0_lt_0]; apply N.pow_nonzero; discriminate. Qed.

    (** The bytes written before an array body stay *)
    Lemma enter_below s n tr s' j : pathc (enter_array bc s n) tr s' -> j < cur s -> nthN (buf s') j = nthN (buf s) j /\ cur s <= cur s' /\ en s' = en s /\ cur s' <= N.max (cur s) (lenN (buf s)).
    Proof.
      intros P HJ. unfold enter_array, loop_push, try_bulk in *. 
      assert (K : forall tr s', pathc (if max_loop_depth <=? lenN (loops s) then Halt EOob s
        else let* l0 := arr_push max_loop_depth (loops s) (ip s, n) in Cont (set_loops s l0)) tr s' -> nthN (buf s') j = nthN (buf s) j /\ cur s <= cur s' /\ en s' = en s /\ cur s' <= N.max (cur s) (lenN (buf s))).
      { intros tr2 s2' Q. pa1; [pa|]. pa1. destruct PQ as [-> ->]. rs. repeat split; lia. }
      destruct (0 <? n).
      - destruct (n =? 0); [eapply K; eauto|]. destruct (lenN bc <=? ip s + 3); [eapply K; eauto|]. pa1. pa1. pa1; [|eapply K; eauto].
        pa1. pa1. cbv zeta in PQ. destruct (N.ltb_spec (dlen s) (cur s + n)); [eapply K; eauto|]. pa1. destruct PQ as (r & t' & -> & PQ). pa1.
        unfold host_write in E4. rewrite splice_eq in E4. set (d := firstn (N.to_nat n) (map (fun x => x mod 256) (r_bytes r))) in *.
        destruct (N.leb_spec (cur s + lenN d) (lenN (buf s))); [|discriminate]. injection E4 as <-.
        assert (NB : nthN (put (buf s) (cur s) d) j = nthN (buf s) j).
        { rewrite nthN_put by auto. destruct (N.leb_spec (cur s) j); [lia|reflexivity]. }
        unfold dlen in *. pa1.
        + destruct PQ as [-> ->]. rs. repeat split; auto; lia.
        + destruct (max_loop_depth <=? lenN (loops (set_buf s (put (buf s) (cur s) d)))); [destruct PQ|]. pa1. destruct PQ as [-> ->]. rs. repeat split; auto; lia.
      - destruct P as [-> ->]. rs. repeat split; lia.
    Qed.
    Lemma arr_pre_lock op w tr s' : 0x35 <= op <= 0x37 -> Forall fair tr -> pathc (arr_pre bc s1 op w) tr s' -> ends_as s' -> position s' <= 8 * lenN F ->
      follow (arr_pre bc s2 op w) tr (turned s').
    Proof.
      intros HO FT P E PE. unfold arr_pre in *. unfold dlen in *. rs. pa1. destruct v as [key q]. rs. pa1.
      inversion FT as [|? ? _ FT' ]; subst. rewrite L1 in PQ. destruct (N.ltb_spec (lenN F) (c + wbytes w)); [destruct PQ|]. pa1.
      destruct (wrote_len _ _ _ _ _ _ E1) as [LV LV2].
      assert (Wv : wf_bytes v). { pose proof E1 as E2. rewrite write_word_eq in E2. destruct (N.leb_spec (c + wbytes w) (lenN b)); [|discriminate]. injection E2 as <-. apply wf_put; auto; [apply wf_bytes_of|]. rewrite lenN_bytes_of, <- wbytes_nat; auto. }
      assert (RW : read_word w e F c = Ok (got w 0 r)).
      { destruct (word_round_trip w e b c (got w 0 r) Wb LV2) as (b2 & X1 & X2). rewrite E1 in X1. injection X1 as <-.
        rewrite N.mod_small in X2 by apply got_bound.
        rewrite <- X2. rewrite !read_word_eq by auto. rewrite LV, L1. destruct (N.leb_spec (c + wbytes w) (lenN F)); [|lia]. do 2 f_equal.
        apply sub_ext; try lia. intros j HJ.
        destruct (enter_below _ _ _ _ j PQ ltac:(rs; lia)) as (B1 & B2 & B3 & B4). rs. rewrite <- B1. apply (ends_byte s'); auto. lia. }
      rewrite RW. cbn [lift]. apply follow_call; [assumption| |].
      { tell. destruct (N.leb_spec 0x35 op), (N.leb_spec op 0x37); try lia. cbn [andb]. exists w. split; reflexivity. }
      intros r' (_ & _ & A). cbn [rq_how ask] in A. change (got w (got w 0 r) r' = got w 0 r) in A. rewrite A.
      unfold set_ip, set_buf, set_cur in *. rs. apply (enter_lock v); auto. lia.
    Qed.
    Lemma arr_fixed_lock tr s' : Forall fair tr -> pathc (arr_fixed bc s1) tr s' -> ends_as s' -> position s' <= 8 * lenN F ->
      follow (arr_fixed bc s2) tr (turned s').
    Proof.
      intros FT P E PE. unfold arr_fixed in *. rs. pa1. destruct v as [key q]. pa1. destruct v as [n q2]. rs. pa1.
      inversion FT as [|? ? _ FT' ]; subst. apply follow_call; [assumption|tell|].
      intros r' (_ & _ & A). cbn [rq_how ask] in A. change (got W4 n r' = got W4 n r) in A. rewrite A. unfold set_ip in *. rs. apply (enter_lock b); auto.
    Qed.
    Lemma arr_dynamic_lock tr s' : Forall fair tr -> pathc (arr_dynamic bc s1) tr s' -> ends_as s' -> position s' <= 8 * lenN F ->
      follow (arr_dynamic bc s2) tr (turned s').
    Proof.
      intros FT P E PE. unfold arr_dynamic in *. rs. pa1. destruct v as [key q]. pa1. destruct v as [ref q2]. rs. pa1.
      inversion FT as [|? ? _ FT' ]; subst. apply follow_call; [assumption|tell|].
      intros r' (_ & _ & A). cbn [rq_how ask] in A. change (got W8 0 r' = got W8 0 r) in A. rewrite A.
      cbv zeta in *. destruct (0xFFFFFFFF <? got W8 0 r); [destruct PQ|]. pa1. inversion FT' as [|? ? _ FT2 ]; subst.
      apply follow_call; [assumption|tell|].
      intros r2' (_ & _ & A2). cbn [rq_how ask] in A2. change (got W4 (got W8 0 r) r2' = got W4 (got W8 0 r) r0) in A2. rewrite A2.
      unfold set_ip in *. rs. apply (enter_lock b); auto.
    Qed.
    Lemma const_write_lock tr s' : pathc (const_write bc s1) tr s' -> ends_as s' -> position s' <= 8 * lenN F ->
      follow (const_write bc s2) tr (turned s').
    Proof.
      intros P E PE. unfold const_write in *. unfold dlen in *. rs. pa1. destruct v as [ty q]. destruct (int_type ty) as [[w sg]|]; [|destruct PQ].
      destruct sg; [destruct PQ|]. pa1. destruct v as [v q2]. rs. rewrite L1 in PQ. destruct (N.ltb_spec (lenN F) (c + wbytes w)); [destruct PQ|]. pa1.
      destruct PQ as [-> ->]. unfold position in PE. rs. pose proof (fetch_bound _ _ _ _ E1) as VB.
      pose proof (wrote_back w e b c v v0 _ Wb E2 E eq_refl eq_refl ltac:(rs; lia) ltac:(rs; lia)) as RB. rewrite N.mod_small in RB by auto.
      rewrite (rewrites w e c v H RB). cbn [lift]. apply fo_done.
    Qed.
    Lemma const_check_lock tr s' : pathc (const_check bc s1) tr s' -> ends_as s' -> position s' <= 8 * lenN F ->
      follow (const_check bc s2) tr (turned s').
    Proof.
      intros P E PE. unfold const_check in *. unfold dlen in *. rs. pa1. destruct v as [key q]. pa1. destruct v as [ty q1]. destruct (int_type ty) as [[w sg]|]; [|destruct PQ].
      pa1. destruct v as [v q2]. rs. rewrite L1 in PQ. destruct (N.ltb_spec (lenN F) (c + wbytes w)); [destruct PQ|]. cbv beta in PQ. pa1.
      destruct PQ as [-> ->]. unfold position in PE. rs. pose proof (fetch_bound _ _ _ _ E2) as VB.
      pose proof (wrote_back w e b c v v0 _ Wb E3 E eq_refl eq_refl ltac:(rs; lia) ltac:(rs; lia)) as RB. rewrite N.mod_small in RB by auto.
      rewrite RB. cbn [lift]. rewrite N.eqb_refl. apply fo_const; [reflexivity|]. intros r R _. rewrite R. apply fo_done.
    Qed.
    Lemma enum_lock tr s' : pathc (enum_check bc s1) tr s' -> ends_as s' -> position s' <= 8 * lenN F ->
      follow (enum_check bc s2) tr (turned s').
    Proof.
      intros P E PE. unfold enum_check, read_back in *. rs. pa1. destruct v as [ty q]. pa1. destruct v as [n q1]. destruct (int_type ty) as [[w sg]|]; [|destruct PQ].
      destruct (N.ltb_spec c (wbytes w)); [cbn [lift] in PQ; destruct PQ|]. pa1. pa1. destruct v0 as [q2|]; [|destruct PQ]. destruct PQ as [-> ->].
      unfold position in PE. rs.
      pose proof (ends_word _ w (c - wbytes w) E ltac:(rs; lia) ltac:(rs; lia)) as RW. rs. rewrite RW, E2. cbn [lift]. rewrite E3. apply fo_done.
    Qed.
    Lemma range_lock tr s' : pathc (range_check bc s1) tr s' -> ends_as s' -> position s' <= 8 * lenN F ->
      follow (range_check bc s2) tr (turned s').
    Proof.
      intros P E PE. unfold range_check in *. rs. pa1. destruct v as [ty q]. cbv zeta in *.
      assert (G : forall w lt, 
        pathc (let* (mn, p0) := fetch w bc q in let* (mx, p1) := fetch w bc p0 in
           if cur (set_ip s1 p1) <? wbytes w then Halt EOob (set_ip s1 p1)
           else let* v := read_word w (en (set_ip s1 p1)) (buf (set_ip s1 p1)) (cur (set_ip s1 p1) - wbytes w) in
                if lt v mn || lt mx v then Halt EValidation (set_ip s1 p1) else Cont (set_ip s1 p1)) tr s' ->
        follow (let* (mn, p0) := fetch w bc q in let* (mx, p1) := fetch w bc p0 in
           if cur (set_ip s2 p1) <? wbytes w then Halt EOob (set_ip s2 p1)
           else let* v := read_word w (en (set_ip s2 p1)) (buf (set_ip s2 p1)) (cur (set_ip s2 p1) - wbytes w) in
                if lt v mn || lt mx v then Halt EValidation (set_ip s2 p1) else Cont (set_ip s2 p1)) tr (turned s')).
      { clear PQ. intros w lt P. pa1. destruct v as [mn q1]. pa1. destruct v as [mx q2]. rs. destruct (N.ltb_spec c (wbytes w)); [destruct PQ|]. pa1.
        destruct (lt v mn || lt mx v) eqn:X; [destruct PQ|]. destruct PQ as [-> ->]. unfold position in PE. rs.
        pose proof (ends_word _ w (c - wbytes w) E ltac:(rs; lia) ltac:(rs; lia)) as RW. rs. rewrite RW, E3. cbn [lift]. rewrite X. apply fo_done. }
      destruct (int_type ty); [apply G; auto|]. destruct (ty =? 24); [apply G; auto|]. destruct (ty =? 25); [apply G; auto|]. destruct PQ.
    Qed.
    Lemma crc_lock w32 tr s' : pathc (crc_op bc s1 w32) tr s' -> ends_as s' -> position s' <= 8 * lenN F ->
      follow (crc_op bc s2 w32) tr (turned s').
    Proof.
      intros P E PE. unfold crc_op in *. unfold dlen in *. cbv zeta in *. set (w := if w32 then W4 else W2) in *. rs.
      pa1. destruct v as [po q]. pa1. destruct v as [ini q1]. pa1. destruct v as [xo q2]. pa1. destruct v as [fl q3]. rs.
      rewrite slice_eq in PQ. rewrite slice_eq. rewrite L1 in PQ. rewrite N.add_0_l in *. destruct (N.leb_spec c (lenN F)); cbn [lift] in *; [|destruct PQ].
      destruct (N.ltb_spec (lenN F) (c + wbytes w)); [destruct PQ|]. pa1. destruct PQ as [-> ->]. unfold position in PE. rs.
      assert (ES : sub F 0 c = sub b 0 c).
      { apply sub_ext; try lia. intros j HJ. rewrite (ends_byte _ j E) by (rs; lia). rs. apply (wrote_below _ _ _ _ _ _ j E4). lia. }
      rewrite ES. pose proof (wrote_back w e b c _ v _ Wb E4 E eq_refl eq_refl ltac:(rs; lia) ltac:(rs; lia)) as RB.
      rewrite RB. cbn [lift]. unfold trunc. rewrite N.eqb_refl. apply fo_done.
    Qed.

    Lemma emit_lock tr s' : pathc (emit bc s1) tr s' -> ends_as s' -> position s' <= 8 * lenN F ->
      (forall ty q v r, fetch W1 bc i = Ok (ty, q) -> k = v :: r -> ty <> 0x18 -> ty <> 0x19 -> v < 2 ^ (8 * field_bytes ty)) ->
      follow (emit bc s2) tr (turned s').
    Proof.
      intros P E PE HV. unfold emit, pop in *. unfold dlen in *. rs. pa1. destruct v as [ty q]. rs. destruct k as [|v r]; [destruct PQ|].
      specialize (HV ty q v r E0 eq_refl). unfold field_bytes in HV.
      destruct (emit_width ty) as [w|] eqn:EW; [|destruct PQ]. rs. rewrite L1 in PQ. destruct (N.ltb_spec (lenN F) (c + wbytes w)); [destruct PQ|]. cbv zeta in PQ. pa1.
      destruct PQ as [-> ->]. unfold position in PE. rs.
      pose proof (wrote_back w e b c _ v0 _ Wb E1 E eq_refl eq_refl ltac:(rs; lia) ltac:(rs; lia)) as RB.
      rewrite RB. cbn [lift].
      assert (M : emit_matches ty v ((if ty =? 24 then f_conv F64 F32 v else v) mod 2 ^ (8 * wbytes w)) = true).
      { unfold emit_matches. destruct (N.eqb_spec ty 24) as [->|N1]; [|destruct (N.eqb_spec ty 25) as [->|N2]].
        - injection EW as <-. change (8 * wbytes W4) with 32. destruct (fsub_self32 (f_conv F64 F32 v)) as [X|[X|X]]; rewrite X; vm_compute; reflexivity.
        - injection EW as <-. change (8 * wbytes W8) with 64. destruct (fsub_self64 v) as [X|[X|X]]; rewrite X; vm_compute; reflexivity.
        - rewrite N.mod_small by (apply HV; auto). apply N.eqb_refl. }
      rewrite M. apply fo_done.
    Qed.

    Lemma exec_lock op tr s' : Forall fair tr -> pathc (exec_op lm bc op s1) tr s' -> ends_as s' -> position s' <= 8 * lenN F ->
      8 * c + o <= 8 * lenN F ->
      (op = 0x20 \/ op = 0x21 -> forall n q, fetch W1 bc (snd (fetchv W2 bc i)) = Ok (n, q) -> 8 * c + o + n <= 8 * lenN F) ->
      (op = 0x22 -> 8 * c + o + 1 <= 8 * lenN F) ->
      (op = 0x23 -> forall n q, fetch W1 bc i = Ok (n, q) -> 8 * c + o + n <= 8 * lenN F) ->
      (op = 0x65 -> forall ty q v r, fetch W1 bc i = Ok (ty, q) -> k = v :: r -> ty <> 0x18 -> ty <> 0x19 -> v < 2 ^ (8 * field_bytes ty)) ->
      follow (exec_op lm bc op s2) tr (turned s').
    Proof.
      intros FT P E PE PC H20 H22 H23 H65. unfold exec_op in *. pose proof (classify_ops op) as CO. destruct (classify op) eqn:EC.
      all: try (unfold scale_lin, trans_poly, trans_spline, trans_int, dup_op, arr_eof, push, pop, jump_op, jump_to, dlen in *; rs; rewrite ?L1 in P; pa; fail).
      - apply const_write_lock; auto.
      - apply const_check_lock; auto.
      - apply enum_lock; auto.
      - apply range_lock; auto.
      - apply crc_lock; auto.
      - unfold io_int in *. apply (scalar_lock b); auto.
        + intros x. unfold stored_as. now rewrite CO.
        + intros x. unfold shown_as. now rewrite CO.
        + destruct (emit_int _ _ CO) as [EM _]. unfold field_bytes. now rewrite EM.
        + intros ->. split; [reflexivity|]. intros x. split; reflexivity.
      - apply (bool_lock b); auto.
      - unfold io_float in *. apply (scalar_lock b); auto.
        + intros x. destruct f64; subst op; reflexivity.
        + intros x. destruct f64; subst op; reflexivity.
        + destruct f64; subst op; reflexivity.
        + intros ->. split; [reflexivity|]. intros x. split; reflexivity.
      - apply (bit_u_lock b); auto; apply H20; auto.
      - apply (bit_i_lock b); auto; apply H20; auto.
      - apply (bit_bool_lock b); auto.
      - apply (pad_lock b); auto; apply H23; auto.
      - apply (fill_lock b); auto.
      - apply (str_null_lock b); auto.
      - apply (str_pre_lock b); auto.
      - apply arr_pre_lock; auto.
      - apply arr_fixed_lock; auto.
      - apply arr_dynamic_lock; auto.
      - unfold arr_end in *. unfold dlen in *. rs. destruct l as [|[st0 rem] rest]; [destruct P|]. rewrite L1 in P. destruct (rem =? eof_mark); pa.
      - apply (raw_lock b); auto.
      - unfold switch_op, jump_to in *. pa.
      - unfold switch_table, jump_to in *. pa.
      - unfold jump_if_not, pop, jump_to in *. pa.
      - unfold load_ctx, push in *. pa.
      - unfold store_ctx, pop in *. pa.
      - apply emit_lock; auto; apply H65; auto.
      - unfold bin_op, pop, push in *. pa.
      - unfold un_op, pop, push in *. pa.
    Qed.
  End Ops3.

  Lemma step_lock s te s' : md s = Enc -> wf_bytes (buf s) -> lenN (buf s) = lenN F -> boff s < 8 -> ip s < lenN bc ->
    position s <= position s' -> Forall fair te -> pathc (step lm bc s) te s' -> ends_as s' -> position s' <= 8 * lenN F ->
    ~ runs_out_of_bits bc s -> ~ computed_too_big bc s -> follow (step lm bc (turned s)) te (turned s').
  Proof.
    intros M W L O HI PS FT P E PE NB NC. unfold step in *. cbn [ip turned] in *. rewrite mem_eq in *.
    destruct (N.ltb_spec (ip s) (lenN bc)); [|lia]. cbn [lift] in *. fold (opcode_at bc s) in *. set (op := opcode_at bc s) in *.
    unfold position in *.
    assert (HB : bit_width bc s = 0 \/ 8 * cur s + boff s + bit_width bc s <= 8 * lenN F).
    { unfold runs_out_of_bits, position in NB. rewrite L in NB. destruct (N.eq_dec (bit_width bc s) 0); [now left|].
      destruct (N.le_gt_cases (8 * cur s + boff s + bit_width bc s) (8 * lenN F)); [now right|]. exfalso. apply NB. split; auto. }
    assert (F1 : forall q n q', fetch W1 bc q = Ok (n, q') -> n = nthN bc q).
    { intros q n q' X. rewrite fetch_ok in X. injection X as X. rewrite <- (fetchv1 bc q WB), X. reflexivity. }
    destruct s as [m b i c o e t pf l k]. cbn [md buf ip cur boff en tr opt loops stk] in *. subst m.
    assert (K : forall c2 o2, o2 < 8 -> 8 * c2 + o2 <= 8 * lenN F -> (aligns op = false -> c2 = c /\ o2 = o) ->
      pathc (exec_op lm bc op (mkst Enc b (i + 1) c2 o2 e t pf l k)) te s' ->
      follow (exec_op lm bc op (mkst Dec F (i + 1) c2 o2 e t pf l k)) te (turned s')).
    { intros c2 o2 O2 P2 HA Q. apply (exec_lock b); auto.
      - intros HO. assert (AL : aligns op = false) by (destruct HO as [-> | ->]; reflexivity). destruct (HA AL) as [-> ->].
        intros n q X. apply F1 in X. rewrite fetchv_eq in X by auto. cbn [wbytes] in X.
        unfold bit_width in HB. cbn [ip] in HB. change (opcode_at bc _) with op in HB.
        replace ((op =? 32) || (op =? 33)) with true in HB by (destruct HO as [-> | ->]; reflexivity).
        replace (i + 1 + 2) with (i + 3) in X by lia.
        destruct (i + 3 <=? lenN bc); cbn [snd] in X; rewrite <- X in HB; lia.
      - intros HO. assert (AL : aligns op = false) by (rewrite HO; reflexivity). destruct (HA AL) as [-> ->].
        unfold bit_width in HB. change (opcode_at bc _) with op in HB. rewrite HO in HB. cbn [N.eqb Pos.eqb orb ip] in HB. lia.
      - intros HO. assert (AL : aligns op = false) by (rewrite HO; reflexivity). destruct (HA AL) as [-> ->]. intros n q X. apply F1 in X.
        unfold bit_width in HB. change (opcode_at bc _) with op in HB. rewrite HO in HB. cbn [N.eqb Pos.eqb orb ip] in HB. rewrite <- X in HB. lia.
      - intros HO ty q v r X -> N1 N2. apply F1 in X. subst ty.
        destruct (N.lt_ge_cases v (2 ^ (8 * field_bytes (nthN bc (i + 1))))); [auto|]. exfalso. apply NC.
        unfold computed_too_big. cbn [ip stk]. split; [exact HO|]. split; [exact N1|]. split; [exact N2|]. exists v, r. auto. }
    unfold align, turned in *. unfold set_ip, set_boff, set_cur in *. cbn [md buf ip cur boff en tr opt loops stk] in *.
    destruct (aligns op) eqn:AL; cbn [andb] in *.
    - destruct (N.eqb_spec o 0); cbn [negb] in *.
      + apply K; auto; lia.
      + apply K; auto; try lia.
    - apply K; auto; lia.
  Qed.

  Lemma reaches_first {H} (host : H -> request -> H * reply) s h s2 h2 : reaches host lm bc s h s2 h2 ->
    (s2 = s /\ h2 = h) \/ exists s1 h1 t, ip s < lenN bc /\ interp host (step lm bc s) h = (SCont s1, h1, t) /\ reaches host lm bc s1 h1 s2 h2.
  Proof.
    induction 1 as [|s h s3 h3 s4 h4 t R IH HI EI]; [now left|]. right. destruct IH as [[-> ->]|(s1 & h1 & t1 & A & B & C)].
    - exists s4, h4, t. split; [auto|]. split; [auto|]. apply reach_refl.
    - exists s1, h1, t1. split; [auto|]. split; [auto|]. eapply reach_step; eauto.
  Qed.
  Section Run.
    Context {H : Type} (host : H -> request -> H * reply) {G : Type} (host2 : G -> request -> G * reply) (like : list event -> G -> Prop).
    Hypothesis CO : cooperates host2 like.

    Lemma run_lock fuel : forall s h s' h' t g, run host lm bc fuel s h = (Done EOk s', h', t) ->
      (forall s1 h1, reaches host lm bc s h s1 h1 -> md s1 = Enc /\ ends_as s1 /\ position s1 <= 8 * lenN F) ->
      (forall s1 h1 s2 h2 t2, reaches host lm bc s h s1 h1 -> ip s1 < lenN bc -> interp host (step lm bc s1) h1 = (SCont s2, h2, t2) -> position s1 <= position s2) ->
      during host lm bc s h (fun s => ~ runs_out_of_bits bc s /\ ~ computed_too_big bc s) ->
      Forall fair t -> like t g ->
      exists g' t', run host2 lm bc fuel (turned s) g = (Done EOk (turned s'), g', t') /\ reports t t' /\
        (forall d gd, reaches host2 lm bc (turned s) g d gd -> exists s1 h1, reaches host lm bc s h s1 h1 /\ d = turned s1).
    Proof.
      induction fuel as [|f IH]; intros s h s' h' t g X HE HM HD FT HL; cbn [run] in *; [discriminate|].
      change (ip (turned s)) with (ip s). destruct (N.leb_spec (lenN bc) (ip s)) as [HI|HI].
      - injection X as -> <- <-. exists g, []. split; [reflexivity|]. split; [constructor|]. intros d gd RD. destruct (reaches_first _ _ _ _ _ RD) as [[-> _]|(s1 & h1 & t1 & A & _)].
        + eexists; eexists; split; [apply reach_refl|reflexivity].
        + cbn [ip turned] in A. lia.
      - destruct (interp host (step lm bc s) h) as [[x h1] t1] eqn:X1. destruct x as [s1|er s1|u]; [| |discriminate].
        2:{ injection X as XE _ _ _. elim (step_fails _ _ _ _ _ _ _ _ _ X1). exact XE. }
        destruct (run host lm bc f s1 h1) as [[oc h2] t2] eqn:R. injection X as -> <- <-.
        assert (R1 : reaches host lm bc s h s1 h1) by (eapply reach_step; [apply reach_refl|exact HI|exact X1]).
        apply Forall_app in FT. destruct FT as [FT1 FT2].
        destruct (HE s h (reach_refl _ _ _ _ _)) as (M & (W & L & B & _) & P0).
        destruct (HE s1 h1 R1) as (M1 & E1 & P1). destruct (HD s h (reach_refl _ _ _ _ _) HI) as [NB NC].
        pose proof (HM s h s1 h1 t1 (reach_refl _ _ _ _ _) HI X1) as PM.
        pose proof (step_lock s t1 s1 M W L B HI PM FT1 (interp_path _ _ _ _ _ _ X1) E1 P1 NB NC) as FO.
        destruct (follow_interp host2 like _ _ _ CO FO g t2 HL) as (g1 & u1 & Y1 & RP1 & HL2).
        destruct (IH s1 h1 s' h2 t2 g1 R) as (g' & u2 & Y2 & RP2 & RD2); auto.
        + intros s3 h3 R3. apply (HE s3 h3). eapply reaches_trans; eauto.
        + intros s3 h3 s4 h4 t4 R3. apply HM. eapply reaches_trans; eauto.
        + intros s3 h3 R3. apply (HD s3 h3). eapply reaches_trans; eauto.
        + exists g', (u1 ++ u2). rewrite Y1, Y2. split; [reflexivity|]. split.
          * clear - RP1 RP2. induction RP1; cbn [app]; auto; constructor; auto.
          * intros d gd RD. destruct (reaches_first _ _ _ _ _ RD) as [[-> _]|(s3 & g3 & t3 & _ & BB & C)].
            -- exists s, h. split; [apply reach_refl|reflexivity].
            -- rewrite Y1 in BB. injection BB as <- <- <-. destruct (RD2 _ _ C) as (s4 & h4 & R4 & ->). exists s4, h4. split; [|reflexivity].
               eapply reaches_trans; eauto.
    Qed.
  End Run.
End Lock.

Lemma encode_decode {H} (host : H -> request -> H * reply) {G} (host2 : G -> request -> G * reply) like lm bc data h fuel s' h' t g :
  wf_bytes bc -> lenN bc < 2 ^ 62 -> wf_bytes data -> host_refuses_cleanly host ->
  run host lm bc fuel (init Enc data) h = (Done EOk s', h', t) -> position s' <= 8 * lenN data ->
  during host lm bc (init Enc data) h (fun s => ~ emits_mid_byte bc s /\ ~ switches_mid_byte bc s /\
    ~ runs_out_of_bits bc s /\ ~ computed_too_big bc s) ->
  Forall comes_back t -> cooperates host2 like -> like t g ->
  exists s2 g' t', run host2 lm bc fuel (init Dec (buf s')) g = (Done EOk s2, g', t') /\ s2 = turned (buf s') s' /\ reports t t' /\
    forall d gd, reaches host2 lm bc (init Dec (buf s')) g d gd -> exists s1 h1, reaches host lm bc (init Enc data) h s1 h1 /\ d = turned (buf s') s1.
Proof.
  intros WB BL WD HR X PE HD CB CO HL.
  pose proof (run_done _ _ _ _ _ _ _ _ _ _ X) as PS.
  assert (RS : forall s1 h1, reaches host lm bc (init Enc data) h s1 h1 -> mono False True (init Enc data) s1).
  { intros s1 h1 R. eapply (reaches_mono host lm bc False True False); eauto; try tauto. now apply init_Inv. }
  assert (MS : mono False True (init Enc data) s').
  { eapply (passes_mono host lm bc False True False); eauto; try tauto. now apply init_Inv. }
  pose proof (m_len _ _ _ _ MS) as LS. unfold dlen in LS. change (buf (init Enc data)) with data in LS.
  assert (ST : forall s1 h1, reaches host lm bc (init Enc data) h s1 h1 -> passes host lm bc s1 h1 s' h').
  { destruct (run_ends host lm bc _ _ _ _ _ _ _ X) as [(_ & R & _)|(s1 & h1 & t1 & _ & _ & Y)].
    2:{ elim (step_fails _ _ _ _ _ _ _ _ _ Y). reflexivity. }
    intros s1 h1 R1. clear - X R1. revert s' h' t X.
    assert (K : forall fuel s0 h0, reaches host lm bc s0 h0 s1 h1 -> forall s' h' t, run host lm bc fuel s0 h0 = (Done EOk s', h', t) ->
      exists fuel' t', run host lm bc fuel' s1 h1 = (Done EOk s', h', t')).
    { clear. intros fuel s0 h0 R. induction R as [|s0 h0 s2 h2 s3 h3 t3 R IH HI EI]; intros s' h' t X; [eauto|].
      destruct (IH _ _ _ X) as (f2 & t2 & X2). destruct f2 as [|f2]; [discriminate|]. cbn [run] in X2.
      destruct (N.leb_spec (lenN bc) (ip s2)); [lia|]. rewrite EI in X2. destruct (run host lm bc f2 s3 h3) as [[o4 h4] t4] eqn:Y.
      injection X2 as -> -> <-. eauto. }
    intros s' h' t X. destruct (K fuel _ _ R1 _ _ _ X) as (f2 & t2 & Y). now apply run_done in Y. }
  assert (HE : forall s1 h1, reaches host lm bc (init Enc data) h s1 h1 -> md s1 = Enc /\ ends_as (buf s') s1 /\ position s1 <= 8 * lenN (buf s')).
  { intros s1 h1 R1. pose proof (RS _ _ R1) as M. split; [rewrite (m_md _ _ _ _ M); reflexivity|].
    pose proof (ST _ _ R1) as P1. destruct (position_monotone host lm bc BL WB Enc data h WD s1 h1 s' h' R1 P1) as [PM _]. split; [|lia].
    split; [apply (m_inv _ _ _ _ M)|]. split; [pose proof (m_len _ _ _ _ M) as LL; unfold dlen in LL; change (buf (init Enc data)) with data in LL; congruence|].
    split; [apply (m_inv _ _ _ _ M)|].
    apply (encode_bits_final host lm bc BL WB Enc data h WD s1 h1 s' h' HR R1 P1).
    intros s3 h3 R3 I3. destruct (HD s3 h3) as (A & B & _); auto. eapply reaches_trans; eauto. }
  assert (FT : Forall fair t).
  { apply Forall_forall. intros ev IE. split; [now apply (proj1 (Forall_forall _ _) CB)|].
    destruct (run_events _ _ _ _ _ _ _ _ _ _ X IE) as (s1 & h1 & x & h2 & t1 & _ & _ & EI & IE1). clear - HR EI IE1.
    revert h1 x h2 t1 EI IE1. generalize (step lm bc s1). intros a. induction a as [s|e s|u|rq k IH]; intros h1 x h2 t1 EI IE1; cbn [interp] in EI; try (injection EI as <- <- <-; destruct IE1).
    destruct (host h1 rq) as [h3 r] eqn:HH. destruct (interp host (k r) h3) as [[y h4] t4] eqn:Y. injection EI as <- <- <-.
    destruct IE1 as [<-|IE1]; [|eapply IH; eauto]. cbn [snd]. intros RF. pose proof (HR h1 rq) as Z. rewrite HH in Z. cbn [snd] in Z. auto. }
  destruct (run_lock lm bc (buf s') WB ltac:(apply (m_inv _ _ _ _ MS)) host host2 like CO fuel (init Enc data) h s' h' t g X HE) as (g' & t' & Y & RP & RD); auto.
  - intros s1 h1 s2 h2 t2 R1 I1 E1. apply (position_monotone host lm bc BL WB Enc data h WD s1 h1 s2 h2 R1). left.
    eapply reach_step; [apply reach_refl|exact I1|exact E1].
  - intros s1 h1 R1 I1. destruct (HD s1 h1 R1 I1) as (_ & _ & A & B). auto.
  - exists (turned (buf s') s'), g', t'. split; [exact Y|]. split; [reflexivity|]. split; [exact RP|exact RD].
Qed.

(** The replaying host cooperates *)
Lemma replay_cooperates : cooperates replay (fun t g => g = map snd t).
Proof.
  split.
  - intros rq0 r0 t g rq g' r -> (K & O & HW & T) HH. unfold replay in HH. rewrite HW in HH.
    assert (NC : rq_how rq0 <> HConst) by (intros E; rewrite E in T; exact T).
    assert (HH2 : (map snd t, {| r_ok := r_ok r0; r_val := r_val r0; r_str := None; r_bytes := [] |}) = (g', r)).
    { destruct (rq_how rq0); try exact HH. congruence. }
    injection HH2 as <- <-. split; [|reflexivity]. split; [reflexivity|]. split; [reflexivity|].
    destruct (rq_how rq0); auto.
    + unfold after. rewrite T. reflexivity.
    + destruct ((53 <=? rq_op rq0) && (rq_op rq0 <=? 55)).
      * destruct T as (w & T0 & T1). unfold after in *. rewrite T1, T0. unfold answer. cbn [r_val]. destruct (r_val r0); reflexivity.
      * unfold after. rewrite T. reflexivity.
  - intros t g rq g' r -> HW HH. unfold replay in HH. rewrite HW in HH. injection HH as <- <-. auto.
Qed.

Lemma encode_buffer {H} (host : H -> request -> H * reply) lm bc data h fuel s' h' t :
  wf_bytes bc -> lenN bc < 2 ^ 62 -> wf_bytes data -> host_refuses_cleanly host ->
  run host lm bc fuel (init Enc data) h = (Done EOk s', h', t) -> wf_bytes (buf s') /\ lenN (buf s') = lenN data.
Proof.
  intros WB BL WD HR X. pose proof (run_done _ _ _ _ _ _ _ _ _ _ X) as PS.
  assert (MS : mono False True (init Enc data) s').
  { eapply (passes_mono host lm bc False True False); eauto; try tauto. now apply init_Inv. }
  split; [apply (m_inv _ _ _ _ MS)|]. apply (m_len _ _ _ _ MS).
Qed.
