(** Termination of runs. *)
From Verif Require Import Base SpecBytes LemBase ModelWord LemWord ModelBits ModelFloat ModelTrans ModelVM SpecVM
  LemAct LemSafe LemRun LemArr LemStop.
Ltac Zify.zify_post_hook ::= Z.div_mod_to_equations.

(** ** How one instruction moves the instruction pointer and the loop stack *)
Fixpoint conts (C : st -> Prop) (a : act) : Prop :=
  match a with Cont s => C s | Ask _ k => forall r, conts C (k r) | _ => True end.
Lemma conts_mono (C C' : st -> Prop) a : (forall s, C s -> C' s) -> conts C a -> conts C' a.
Proof. intros HC. induction a; cbn; auto. Qed.
Lemma conts_lift {A} C (x : result A) k : (forall v, x = Ok v -> conts C (k v)) -> conts C (lift x k).
Proof. intros HK. destruct x; cbn; auto. Qed.
Lemma conts_fetch C w bc p k :
  (forall v p', fetchv w bc p = (v, p') -> p <= p' -> conts C (k (v, p'))) -> conts C (lift (fetch w bc p) k).
Proof.
  intros HK. rewrite fetch_ok. cbn [lift]. destruct (fetchv w bc p) as [v p'] eqn:E.
  apply HK; auto. eapply fetchv_pos; eauto.
Qed.
Lemma conts_call C s key op p h k : (forall r, conts C (k r)) -> conts C (call s key op p h k).
Proof. intros HK r. cbn. destruct (r_ok r); cbn; auto. Qed.
Lemma interp_conts {H} (host : H -> request -> H * reply) C a : conts C a -> forall h s h' t,
  interp host a h = (SCont s, h', t) -> C s.
Proof.
  induction a as [s|e s|u|rq k IH]; cbn [conts interp]; intros HC h s2 h' t X; try (inversion X; subst; auto; fail).
  destruct (host h rq) as [h1 r]. destruct (interp host (k r) h1) as [[x h2] t2] eqn:EI.
  inversion X; subst. eapply IH; eauto.
Qed.

Ltac cts1 :=
  match goal with
  | |- conts _ (lift (fetch _ _ _) _) => apply conts_fetch; intros ? ? ? ?
  | |- conts _ (lift _ _) => apply conts_lift; intros ? ?
  | |- conts _ (call _ _ _ _ _ _) => apply conts_call; intros ?
  | |- conts _ (Ask _ _) => intros ?
  | |- conts _ (if ?x then _ else _) => destruct x eqn:?
  | |- conts _ (match ?x with _ => _ end) => destruct x eqn:?
  | |- conts _ (let _ := _ in _) => cbv zeta
  | |- conts _ (Halt _ _) => exact I
  | |- conts _ (Undef _) => exact I
  end.
Ltac cts := repeat (cbv beta; cts1).

(** Straight on: loop stack unchanged *)
Definition on (s s' : st) : Prop := ip s <= ip s' /\ loops s' = loops s.
(** Straight on, possibly opening one loop *)
Definition opening (s s' : st) : Prop :=
  ip s <= ip s' /\ (loops s' = loops s \/
    exists b n, loops s' = (b, n) :: loops s /\ ip s <= b <= ip s' /\ n < 2 ^ 32).
(** What ARR_END does *)
Definition closing (s s' : st) : Prop :=
  exists b n rest, loops s = (b, n) :: rest /\
    ((ip s' = ip s /\ loops s' = rest) \/
     (n <> eof_mark /\ 1 < n /\ ip s' = b /\ loops s' = (b, n - 1) :: rest) \/
     (n = eof_mark /\ ip s' = b /\ loops s' = loops s /\ cur s' = cur s /\ boff s' = boff s /\ cur s < lenN (buf s))).

Section Ops.
  Variables (lm : libm) (bc : list N).
  Hypothesis WB : wf_bytes bc.

  Ltac on_ := match goal with |- on _ _ => unfold on; split; [unfold set_opt, set_cur, set_buf, set_boff, set_tr, set_stk, set_en, set_ip in *; cbn [ip] in *; lia | reflexivity] end.
  Ltac fin := cts; cbn [conts]; try on_.

  Lemma on_refl s s' : ip s <= ip s' -> loops s' = loops s -> on s s'.
  Proof. split; auto. Qed.
  Lemma push_on s0 s v : on s0 s -> conts (on s0) (push s v).
  Proof. intros [A B]. unfold push. cts. cbn [conts]. split; auto. Qed.
  Lemma pop_on s0 s k : (forall v l, conts (on s0) (k v (set_stk s l))) -> conts (on s0) (pop s k).
  Proof. intros HK. unfold pop. cts. apply HK. Qed.
  Lemma put_on s0 s v n : on s0 s -> conts (on s0) (put_bits s v n Cont).
  Proof. intros [A B]. unfold put_bits. cts. cbn [conts]. split; auto. Qed.
  Lemma get_on s0 s n k : (forall v c o, conts (on s0) (k v (set_boff (set_cur s c) o))) -> conts (on s0) (get_bits s n k).
  Proof. intros HK. unfold get_bits. apply conts_lift. intros [[v c] o] _. apply HK. Qed.
  Lemma on_opening s s' : on s s' -> opening s s'.
  Proof. intros [A B]. split; auto. Qed.

  Lemma skip_scan_le l : forall p d, p <= skip_scan l p d.
  Proof.
    induction l as [|op l IH]; intros p d; cbn [skip_scan]; destruct (d =? 0); try lia.
    etransitivity; [|apply IH]. lia.
  Qed.
  Lemma skip_le p : p <= skip_loop_body bc p.
  Proof. apply skip_scan_le. Qed.

  Lemma loop_push_opening s0 s n : ip s0 <= ip s -> loops s = loops s0 -> n < 2 ^ 32 ->
    conts (opening s0) (loop_push s n).
  Proof.
    intros A B HN. unfold loop_push, arr_push. destruct (_ <=? _); [exact I|]. destruct (_ <? _); cbn [lift conts]; [|exact I].
    split; [exact A|]. right. exists (ip s), n. split; [cbn; now rewrite B|]. split; [cbn; lia|auto].
  Qed.
  Lemma enter_opening s0 s n : ip s0 <= ip s -> loops s = loops s0 -> n < 2 ^ 32 ->
    conts (opening s0) (enter_array bc s n).
  Proof.
    intros A B HN. unfold enter_array. destruct (0 <? n).
    - pose proof (loop_push_opening s0 s n A B HN) as HP. unfold try_bulk.
      repeat (match goal with |- context [lenN bc <=? ip s + 3] => destruct (lenN bc <=? ip s + 3); [exact HP|] end
        || match goal with |- conts _ (if n =? 0 then _ else _) => destruct (n =? 0); [exact HP|] end).
      apply conts_lift; intros nx _. apply conts_lift; intros af _.
      destruct (_ && _); [|exact HP].
      apply conts_lift; intros k0 _. apply conts_lift; intros k1 _. cbv zeta.
      destruct (dlen s <? cur s + n); [exact HP|].
      apply conts_lift; intros l _. intros r. apply conts_lift; intros b' _.
      destruct (r_ok r).
      + cbn [conts]. split; [cbn; lia|left; exact B].
      + apply loop_push_opening; auto.
    - cbn [conts]. split; [|left; exact B]. pose proof (skip_le (ip s)). cbn. lia.
  Qed.
  Lemma got_lt w v r : v < 2 ^ (8 * wbytes w) -> got w v r < 2 ^ (8 * wbytes w).
  Proof.
    intros HV. unfold got. destruct (r_val r); [|auto]. unfold trunc. apply N.mod_lt. apply N.pow_nonzero. lia.
  Qed.
  Lemma w_le32 w v : w <> W8 -> v < 2 ^ (8 * wbytes w) -> v < 2 ^ 32.
  Proof. destruct w; cbn; intros; try congruence; lia. Qed.

  Lemma enum_scan_le w actual n : forall p p', enum_scan w bc p actual n = Ok (Some p') -> p <= p'.
  Proof.
    induction n; intros p p'; cbn [enum_scan]; [discriminate|]. rewrite fetch_ok. cbn [bindR].
    destruct (fetchv w bc p) as [v p1] eqn:E. pose proof (fetchv_pos _ _ _ _ _ E) as [A _].
    destruct (actual =? v).
    - inversion 1. lia.
    - intros X. specialize (IHn _ _ X). lia.
  Qed.

  (** Instructions that may move the instruction pointer anywhere *)
  Definition is_jump (op : N) : bool := (0x50 <=? op) && (op <=? 0x53).

  Definition moves (op : N) (s s' : st) : Prop :=
    if is_jump op then loops s' = loops s
    else if op =? 0x38 then closing s s' else opening s s'.

  Lemma classify_inv2 op :
    match classify op with
    | CSwitch | CJumpIfNot | CJump | CSwitchTable => is_jump op = true
    | CArrEnd => op = 0x38
    | CArrPre w => w <> W8 /\ op <> 0x38 /\ is_jump op = false
    | _ => op <> 0x38 /\ is_jump op = false
    end.
  Proof.
    assert (D : op < 256 \/ 256 <= op) by lia. destruct D as [D|D].
    - assert (A : forallb (fun op => match classify op with
        | CSwitch | CJumpIfNot | CJump | CSwitchTable => is_jump op
        | CArrEnd => op =? 0x38
        | CArrPre W8 => false
        | _ => negb (op =? 0x38) && negb (is_jump op) end) (map N.of_nat (seq 0 256)) = true) by (vm_compute; reflexivity).
      rewrite forallb_forall in A. specialize (A op).
      assert (HI : In op (map N.of_nat (seq 0 256))).
      { apply in_map_iff. exists (N.to_nat op). split; [lia|]. apply in_seq. lia. }
      specialize (A HI). destruct (classify op) eqn:EC;
        try (split; [|]; [lia|]; destruct (is_jump op); auto; lia); try lia; try exact A.
      destruct w; try (split; [discriminate|]; split; [lia|]; destruct (is_jump op); auto; lia).
    - assert (J : is_jump op = false) by (unfold is_jump; lia).
      destruct op as [|p]; [lia|].
      do 8 (destruct p as [p|p|]; try lia; try (split; [lia|exact J])).
  Qed.

  Lemma exec_moves op s : wf_bytes (buf s) -> conts (moves op s) (exec_op lm bc op s).
  Proof.
    intros WD. unfold exec_op. pose proof (classify_inv2 op) as HC.
    unfold moves.
    destruct (classify op) eqn:EC; try (destruct HC as [H38 HJ]; rewrite HJ, (proj2 (N.eqb_neq op 0x38) H38)).
    all: try (cbn [conts]; apply on_opening, on_refl; [reflexivity|reflexivity]; fail).
    all: try (apply (conts_mono (on s)); [apply on_opening|];
      unfold dup_op, emit, const_write, const_check, range_check, scale_lin, trans_poly, trans_spline,
      trans_int, io_bool, load_ctx, store_ctx, push, pop; fin; fail).
    all: try (destruct HC as (HW & H38 & HJ); rewrite HJ, (proj2 (N.eqb_neq op 0x38) H38)).
    all: try (rewrite HC).
    - unfold enum_check. cts. cbn [conts]. apply on_opening, on_refl; [|reflexivity].
      match goal with X : enum_scan _ _ _ _ _ = Ok (Some _) |- _ => pose proof (enum_scan_le _ _ _ _ _ X) end. cbn. lia.
    - apply (conts_mono (on s)); [apply on_opening|]. unfold crc_op. cts. all: cbn [conts]; on_.
    - apply (conts_mono (on s)); [apply on_opening|]. unfold io_int, io_scalar. fin.
    - apply (conts_mono (on s)); [apply on_opening|]. unfold io_float, io_scalar. fin.
    - apply (conts_mono (on s)); [apply on_opening|]. unfold io_bit_u. cts; [apply put_on; on_|].
      apply get_on; intros. fin.
    - apply (conts_mono (on s)); [apply on_opening|]. unfold io_bit_i. cts; [apply put_on; on_|].
      apply get_on; intros. fin.
    - apply (conts_mono (on s)); [apply on_opening|]. unfold io_bit_bool. cts; [apply put_on; on_|].
      apply get_on; intros. fin.
    - apply (conts_mono (on s)); [apply on_opening|]. unfold align_pad. cts; [apply put_on; on_|]. fin.
    - apply (conts_mono (on s)); [apply on_opening|]. unfold align_fill. cts; [apply put_on; on_|apply get_on; intros; fin|fin].
    - apply (conts_mono (on s)); [apply on_opening|]. unfold str_null. fin.
    - apply (conts_mono (on s)); [apply on_opening|]. unfold str_pre. fin.
    - unfold arr_pre. cts; (apply enter_opening; [cbn; lia|reflexivity|]; apply (w_le32 w); [exact HW|]; apply got_lt).
      + apply N.neq_0_lt_0. apply N.pow_nonzero. lia.
      + match goal with X : read_word _ _ _ _ = Ok _ |- _ => rewrite read_word_eq in X by exact WD;
          destruct (_ <=? _) eqn:E2 in X; inversion X; subst end.
        assert (HB : val_of (en s) (sub (buf s) (cur s) (wbytes w)) < 256 ^ lenN (sub (buf s) (cur s) (wbytes w)))
          by (apply val_of_bound; now apply wf_sub).
        rewrite lenN_sub in HB by (apply N.leb_le in E2; exact E2). rewrite wbytes_pow. exact HB.
    - unfold arr_fixed. cts. apply enter_opening; [cbn; lia|reflexivity|]. apply (w_le32 W4); [discriminate|]. apply got_lt.
      match goal with X : fetchv W4 _ _ = _ |- _ => exact (fetchv_bound _ _ _ _ _ WB X) end.
    - unfold arr_eof, arr_push. cts;
        match goal with X : (if ?c then _ else _) = Ok _ |- _ => destruct c; inversion X; subst end; cbn [conts].
      + split; [|right; eexists _, eof_mark; split; [reflexivity|]].
        * match goal with |- context [skip_loop_body _ ?x] => pose proof (skip_le x) end. cbn in *. lia.
        * match goal with |- context [skip_loop_body _ ?x] => pose proof (skip_le x) end. split; [|reflexivity]. cbn in *. lia.
      + split; [|right; eexists _, eof_mark; split; [reflexivity|]].
        * cbn. lia.
        * split; [|reflexivity]. cbn. lia.
    - unfold arr_dynamic. cts. apply enter_opening; [cbn; lia|reflexivity|]. apply (w_le32 W4); [discriminate|]. apply got_lt.
      match goal with X : (_ <? _) = false |- _ => apply N.ltb_ge in X; change (2 ^ (8 * wbytes W4)) with (2 ^ 32); lia end.
    - subst op. change (is_jump 0x38) with false. change (0x38 =? 0x38) with true. cbv iota.
      unfold arr_end. destruct (loops s) as [|[b n] rest] eqn:EL; [exact I|].
      destruct (N.eqb_spec n eof_mark) as [HE|HE].
      + destruct (cur s <? dlen s) eqn:EA.
        * cbn [conts]. exists b, n, rest. split; [auto|]. right. right. split; [auto|]. split; [auto|]. split; [auto|]. split; [auto|].
          split; [auto|]. apply N.ltb_lt in EA. exact EA.
        * apply conts_call. intros r. cbn [conts]. exists b, n, rest. split; [auto|]. left. split; reflexivity.
      + destruct (0 <? n) eqn:E0.
        * destruct (0 <? n - 1) eqn:EA.
          -- cbn [conts]. exists b, n, rest. split; [auto|]. right. left. split; [auto|]. split; [lia|]. split; reflexivity.
          -- apply conts_call. intros r. cbn [conts]. exists b, n, rest. split; [auto|]. left. split; reflexivity.
        * rewrite E0. apply conts_call. intros r. cbn [conts]. exists b, n, rest. split; [auto|]. left. split; reflexivity.
    - apply (conts_mono (on s)); [apply on_opening|]. unfold raw_bytes. fin.
    - unfold switch_op, jump_to. cts. all: reflexivity.
    - unfold switch_table, jump_to. cts. all: reflexivity.
    - unfold jump_if_not, jump_to, pop. cts. all: reflexivity.
    - unfold jump_op, jump_to. cts. all: reflexivity.
    - apply (conts_mono (on s)); [apply on_opening|]. unfold bin_op, pop, push. fin.
    - apply (conts_mono (on s)); [apply on_opening|]. unfold un_op, pop, push. fin.
  Qed.
End Ops.

(** ** The measure *)
Section Measure.
  Variables (B L : N).
  Hypothesis HB : L + 2 ^ 32 <= B.

  (** Starts of open loops do not lie after the instruction pointer, inner ones not before outer ones *)
  Fixpoint sorted (p : N) (l : list (N * N)) : Prop :=
    match l with [] => True | (b, n) :: r => b <= p /\ n < 2 ^ 32 /\ sorted b r end.
  (** Passes left: for a read-to-end loop, one at this position unless it was already made *)
  Definition left (f : N * N) (g : bool) : N :=
    if snd f =? eof_mark then (if g then 0 else 1) else snd f.
  Definition ex (l : list (N * N)) : N := 16 - 2 * lenN l.
  Fixpoint wt (l : list (N * N)) (g : list bool) : N :=
    match l, g with
    | f :: r, x :: g' => wt r g' + (L - fst f) * B ^ ex r + left f x * B ^ (ex r - 1)
    | _, _ => 0
    end.
  Definition meas (p : N) (l : list (N * N)) (g : list bool) : N := wt l g + (L - p) * B ^ ex l.

  Lemma pow_split a b c : c = a + b -> B ^ c = B ^ a * B ^ b.
  Proof. intros ->. apply N.pow_add_r. Qed.
  Lemma left_lt f g : snd f < 2 ^ 32 -> left f g < B.
  Proof. unfold left. destruct (snd f =? eof_mark); [destruct g|]; lia. Qed.
  Lemma Bpos n : 0 < B ^ n.
  Proof. apply N.neq_0_lt_0. apply N.pow_nonzero. lia. Qed.

  Lemma pw2 : B ^ 2 = B * (B * 1).
  Proof. rewrite N.pow_2_r. lia. Qed.
  Lemma pw3 : B ^ 3 = B * (B * (B * 1)).
  Proof. change 3 with (N.succ 2). rewrite N.pow_succ_r', pw2. reflexivity. Qed.
  Lemma ex_cons f l : lenN (f :: l) <= 8 -> ex l = ex (f :: l) + 2.
  Proof. unfold ex. rewrite lenN_cons. lia. Qed.

  Lemma meas_on p p' l g : p < p' -> p < L -> meas p' l g < meas p l g.
  Proof.
    intros A C. unfold meas. pose proof (Bpos (ex l)). nia.
  Qed.
  Lemma meas_open p p' l g b n x : p < b -> b <= p' -> p < L -> n < 2 ^ 32 -> lenN ((b, n) :: l) <= 8 ->
    meas p' ((b, n) :: l) (x :: g) < meas p l g.
  Proof.
    intros A A' C D E. unfold meas. cbn [wt fst]. rewrite (ex_cons (b, n) l E).
    set (k := ex ((b, n) :: l)). replace (k + 2 - 1) with (k + 1) by lia.
    rewrite !N.pow_add_r. rewrite pw2, N.pow_1_r.
    pose proof (Bpos k) as HK. pose proof (left_lt (b, n) x D) as HL. set (q := B ^ k) in *. set (y := left (b, n) x) in *.
    assert (L - b + 1 <= L - p) by lia. assert (L - p' < B) by lia.
    set (u := L - b) in *. set (v := L - p) in *. set (z := L - p') in *.
    assert (u * (q * (B * (B * 1))) + y * (q * B) + z * q < v * (q * (B * (B * 1)))); [|lia].
    replace (v * (q * (B * (B * 1)))) with (q * (v * (B * B))) by ring.
    replace (u * (q * (B * (B * 1))) + y * (q * B) + z * q) with (q * (u * (B * B) + y * B + z)) by ring.
    apply N.mul_lt_mono_pos_l; [auto|].
    assert ((y + 1) * B <= B * B) by (apply N.mul_le_mono_r; lia).
    assert ((u + 1) * (B * B) <= v * (B * B)) by (apply N.mul_le_mono_r; lia). lia.
  Qed.
  Lemma meas_pop p p' l g b n x : b <= p -> p < p' -> p < L -> meas p' l g < meas p ((b, n) :: l) (x :: g).
  Proof.
    intros A C D. unfold meas. cbn [wt fst]. pose proof (Bpos (ex l)).
    assert (L - p' < L - b) by lia. set (q := B ^ ex l) in *. set (u := L - p') in *. set (v := L - b) in *.
    assert (HU : u * q < v * q) by (apply N.mul_lt_mono_pos_r; auto).
    generalize (left (b, n) x * B ^ (ex l - 1)) ((L - p) * B ^ ex ((b, n) :: l)). revert HU.
    generalize (u * q) (v * q). intros. lia.
  Qed.
  Lemma meas_left p p' l g b n n' x x' : left (b, n') x' < left (b, n) x -> lenN ((b, n) :: l) <= 8 ->
    meas p' ((b, n') :: l) (x' :: g) < meas p ((b, n) :: l) (x :: g).
  Proof.
    intros A E. unfold meas. cbn [wt fst]. change (ex ((b, n') :: l)) with (ex ((b, n) :: l)).
    rewrite (ex_cons (b, n) l E). set (k := ex ((b, n) :: l)). replace (k + 2 - 1) with (k + 1) by lia.
    rewrite !N.pow_add_r. rewrite N.pow_1_r. pose proof (Bpos k). set (q := B ^ k) in *.
    set (y := left (b, n) x) in *. set (y' := left (b, n') x') in *. set (c := (L - b) * (q * B ^ 2)).
    assert (L - p' < B) by lia. set (z := L - p') in *. set (z2 := L - p).
    assert (y' * (q * B) + z * q < y * (q * B)); [|lia].
    assert ((y' + 1) * B <= y * B) by (apply N.mul_le_mono_r; lia).
    assert (q * (y' * B + z) < q * (y * B)) by (apply N.mul_lt_mono_pos_l; [auto|lia]).
    replace (y' * (q * B) + z * q) with (q * (y' * B + z)) by ring.
    replace (y * (q * B)) with (q * (y * B)) by ring. lia.
  Qed.
  Lemma wt_bound l : forall p g, lenN l <= 8 -> sorted p l -> wt l g + B ^ (ex l + 1) <= B ^ 17.
  Proof.
    induction l as [|[b n] l IH]; intros p g HL HS; cbn [wt].
    - change (ex [] + 1) with 17. destruct g; lia.
    - destruct HS as (S1 & S2 & S3). rewrite (ex_cons (b, n) l HL).
      set (k := ex ((b, n) :: l)). replace (k + 2 - 1) with (k + 1) by lia.
      destruct g as [|x g].
      + assert (B ^ (k + 1) <= B ^ 17); [|lia]. apply N.pow_le_mono_r; [lia|]. unfold k, ex. lia.
      + cbn [fst]. specialize (IH b g ltac:(rewrite lenN_cons in HL; lia) S3).
        rewrite (ex_cons (b, n) l HL) in IH. fold k in IH.
        replace (k + 2 + 1) with (k + 3) in IH by lia.
        rewrite N.pow_add_r in IH. rewrite !N.pow_add_r, N.pow_1_r.
        pose proof (left_lt (b, n) x S2). set (q := B ^ k) in *. set (y := left (b, n) x) in *.
        rewrite pw3 in IH. rewrite pw2.
        assert (L - b + 1 <= B) by lia. set (u := L - b) in *. clearbody y u q k.
        assert ((y + 1) * (q * B) <= B * (q * B)) by (apply N.mul_le_mono_r; lia).
        assert ((u + 1) * (q * (B * B)) <= B * (q * (B * B))) by (apply N.mul_le_mono_r; lia).
        nia.
  Qed.
  Lemma meas_bound p l g : lenN l <= 8 -> sorted p l -> meas p l g < B ^ 17.
  Proof.
    intros HL HS. unfold meas. pose proof (wt_bound l p g HL HS) as HW. rewrite N.pow_add_r, N.pow_1_r in HW.
    pose proof (Bpos (ex l)). set (q := B ^ ex l) in *. assert (L - p < B) by lia. set (u := L - p) in *.
    assert (u * q < B * q) by (apply N.mul_lt_mono_pos_r; auto). lia.
  Qed.
End Measure.

(** ** Runs *)
Section Runs.
  Context {H : Type} (host : H -> request -> H * reply) (lm : libm) (bc : list N).
  Hypothesis BL : lenN bc < 2 ^ 62.
  Hypothesis WB : wf_bytes bc.

  Lemma step_moves s h s' h' t : wf_bytes (buf s) -> ip s < lenN bc ->
    interp host (step lm bc s) h = (SCont s', h', t) ->
    moves (opcode_at bc s) (align (opcode_at bc s) (set_ip s (ip s + 1))) s'.
  Proof.
    intros WD HI. unfold step. rewrite mem_eq. destruct (N.ltb_spec (ip s) (lenN bc)); [|lia]. cbn [lift].
    intros X. fold (opcode_at bc s) in X. refine (interp_conts host _ _ _ h s' h' t X).
    apply exec_moves; auto. unfold align. destruct (_ && _); exact WD.
  Qed.

  Lemma step_sane s h s' h' t : sane s -> ip s < lenN bc -> interp host (step lm bc s) h = (SCont s', h', t) ->
    sane s' /\ lenN (buf s') = lenN (buf s) /\ position s <= position s'.
  Proof.
    intros HS HI X.
    destruct (reaches_sane host lm bc WB BL s h s' h' HS) as (A & C & D & _); auto.
    eapply reach_step; [constructor|exact HI|exact X].
  Qed.

  (** Cases of [moves] in terms of the state before alignment *)
  Lemma flow s h s' h' t : sane s -> ip s < lenN bc -> interp host (step lm bc s) h = (SCont s', h', t) ->
    (0x50 <= opcode_at bc s <= 0x53 /\ loops s' = loops s) \/
    (ip s < ip s' /\ loops s' = loops s) \/
    (exists b n, loops s' = (b, n) :: loops s /\ ip s < b <= ip s' /\ n < 2 ^ 32) \/
    (exists b n rest, loops s = (b, n) :: rest /\
      ((ip s' = ip s + 1 /\ loops s' = rest) \/
       (n <> eof_mark /\ 1 < n /\ ip s' = b /\ loops s' = (b, n - 1) :: rest) \/
       (n = eof_mark /\ ip s' = b /\ loops s' = loops s /\ repeats bc s))).
  Proof.
    intros HS HI X. destruct HS as (WD & HB & _). pose proof (step_moves s h s' h' t WD HI X) as HM.
    set (op := opcode_at bc s) in *. set (s1 := align op (set_ip s (ip s + 1))) in *.
    assert (A : ip s1 = ip s + 1 /\ loops s1 = loops s /\ buf s1 = buf s)
      by (unfold s1, align; destruct (_ && _); repeat split).
    destruct A as (A1 & A2 & A3). unfold moves in HM. destruct (is_jump op) eqn:EJ.
    { left. unfold is_jump in EJ. split; [lia|congruence]. }
    destruct (N.eqb_spec op 0x38) as [EO|EO].
    - right. right. right. destruct HM as (b & n & rest & M1 & M2). rewrite A2 in M1.
      exists b, n, rest. split; [auto|]. destruct M2 as [[M2 M3]|[(M2 & M3 & M4 & M5)|(M2 & M3 & M4 & M5 & M6 & M7)]].
      + left. split; [lia|auto].
      + right. left. auto.
      + right. right. split; [auto|]. split; [auto|]. split; [congruence|]. split; [auto|]. split; [auto|].
        split; [|exists b, rest; now rewrite M1, M2].
        rewrite A3 in M7. replace (byte_pos s) with (cur s1); [exact M7|].
        unfold s1, align. rewrite EO. change (aligns 0x38) with true. change (boff (set_ip s (ip s + 1))) with (boff s).
        cbn [andb]. unfold byte_pos, position. destruct (N.eqb_spec (boff s) 0) as [HZ|HZ]; cbn [negb];
          unfold set_boff, set_cur, set_ip; cbn [cur boff]; lia.
    - destruct HM as [M1 [M2|(b & n & M2 & M3 & M4)]].
      + right. left. split; [lia|congruence].
      + right. right. left. exists b, n. split; [congruence|]. split; [lia|auto].
  Qed.

  Lemma sorted_le p p' l : sorted p l -> p <= p' -> sorted p' l.
  Proof. destruct l as [|[b n] l]; cbn; auto. intros (A & C & D) E. repeat split; auto. lia. Qed.

  Variables (s0 : st) (h0 : H).
  Hypothesis HJ : jumps_forward host lm bc s0 h0.
  Hypothesis HP : passes_consume host lm bc s0 h0.
  Let D := lenN (buf s0).
  Let B := lenN bc + 2 ^ 32.

  (** [g] marks the read-to-end loops that already went back at the present position *)
  Definition marks (s : st) (h : H) (g : list bool) : Prop :=
    position s < 8 * D -> forall i, nth i g false = true ->
    exists s1 h1 s2 h2 t, reaches host lm bc s0 h0 s1 h1 /\ repeats bc s1 /\
      interp host (step lm bc s1) h1 = (SCont s2, h2, t) /\ reaches host lm bc s2 h2 s h /\
      loops s1 = skipn i (loops s) /\ position s1 = position s.
  Definition total (s : st) (g : list bool) : N :=
    (8 * D - position s) * B ^ 17 + meas B (lenN bc) (ip s) (loops s) g.

  Lemma nth_repeat_false i n : nth i (repeat false n) false = false.
  Proof. revert i. induction n; destruct i; cbn; auto. Qed.

  Lemma one_step s h g s' h' t : sane s -> lenN (buf s) = D -> ip s < lenN bc -> reaches host lm bc s0 h0 s h ->
    sorted (ip s) (loops s) -> length g = length (loops s) -> marks s h g ->
    interp host (step lm bc s) h = (SCont s', h', t) ->
    exists g', sorted (ip s') (loops s') /\ length g' = length (loops s') /\ marks s' h' g' /\ total s' g' < total s g.
  Proof.
    intros HS HD HI HR HO HG HM X. destruct (step_sane _ _ _ _ _ HS HI X) as (HS' & HL' & HPos).
    assert (R' : reaches host lm bc s h s' h') by (eapply reach_step; [constructor|exact HI|exact X]).
    assert (L8 : lenN (loops s) <= 8) by apply HS. assert (L8' : lenN (loops s') <= 8) by apply HS'.
    pose proof (flow _ _ _ _ _ HS HI X) as HF.
    assert (HO' : sorted (ip s') (loops s')).
    { destruct HF as [(F1 & F2)|[(F1 & F2)|[(b & n & F1 & F2 & F3)|(b & n & rest & F1 & F2)]]].
      - rewrite F2. eapply sorted_le; [exact HO|]. pose proof (HJ _ _ _ _ _ HR HI F1 X). lia.
      - rewrite F2. eapply sorted_le; [exact HO|]. lia.
      - rewrite F1. cbn. split; [lia|]. split; [auto|]. eapply sorted_le; [exact HO|]. lia.
      - rewrite F1 in HO. destruct HO as (O1 & O2 & O3).
        destruct F2 as [(F2 & F3)|[(F2 & F3 & F4 & F5)|(F2 & F3 & F4 & F5)]].
        + rewrite F3. eapply sorted_le; [exact O3|]. lia.
        + rewrite F5, F4. cbn. split; [lia|]. split; [lia|auto].
        + rewrite F4, F1, F3. cbn. split; [lia|]. split; [lia|auto]. }
    assert (HBB : lenN bc + 2 ^ 32 <= B) by (unfold B; lia).
    destruct (N.lt_ge_cases (position s) (8 * D)) as [HE|HE];
      [destruct (N.eq_dec (position s) (position s')) as [HQ|HQ]|].
    2:{ (* the position moved *)
      exists (repeat false (length (loops s'))). split; [auto|]. split; [apply repeat_length|].
      split; [intros _ i E; rewrite nth_repeat_false in E; discriminate|].
      unfold total. pose proof (meas_bound B (lenN bc) HBB (ip s') (loops s') (repeat false (length (loops s'))) L8' HO') as MB.
      set (q := B ^ 17) in *. clearbody q. set (m1 := meas _ _ _ _ _) in *. set (m2 := meas _ _ _ _ _).
      assert (8 * D - position s' + 1 <= 8 * D - position s) by lia.
      set (x := 8 * D - position s') in *. set (y := 8 * D - position s) in *. clearbody x y m1 m2.
      assert ((x + 1) * q <= y * q) by (apply N.mul_le_mono_r; auto). lia. }
    (* the position, as far as it counts, did not move *)
    1: assert (HT : 8 * D - position s' = 8 * D - position s) by lia.
    2: assert (HT : 8 * D - position s' = 8 * D - position s) by lia.
    all: assert (HGO : exists g', length g' = length (loops s') /\ marks s' h' g' /\
        meas B (lenN bc) (ip s') (loops s') g' < meas B (lenN bc) (ip s) (loops s) g);
      [|destruct HGO as (g' & G1 & G2 & G3); exists g'; split; [auto|]; split; [auto|]; split; [auto|];
        unfold total; rewrite HT; lia].
    all: assert (HK : forall g' , (forall i, nth i g' false = true -> exists j, nth j g false = true /\ skipn j (loops s) = skipn i (loops s')) ->
        position s = position s' \/ 8 * D <= position s -> marks s' h' g').
    1,3: intros g' HN HQ' HE' i Ei; destruct (HN i Ei) as (j & Ej & EL);
         (destruct HQ' as [HQ'|]; [|lia]);
         destruct (HM ltac:(lia) j Ej) as (s1 & h1 & s2 & h2 & t2 & K1 & K2 & K3 & K4 & K5 & K6);
         exists s1, h1, s2, h2, t2; split; [auto|]; split; [auto|]; split; [auto|];
         split; [eapply reaches_trans; eauto|]; split; congruence.
    all: assert (HQQ : position s = position s' \/ 8 * D <= position s) by auto; clear HT.
    all: destruct HF as [(F1 & F2)|[(F1 & F2)|[(b & n & F1 & F2 & F3)|(b & n & rest & F1 & F2)]]].
    1,5: exists g; split; [congruence|]; split; [apply HK; auto; intros i Ei; exists i; split; [auto|congruence]|];
      rewrite F2; apply meas_on; [exact HBB|exact (HJ _ _ _ _ _ HR HI F1 X)|exact HI].
    1,4: exists g; split; [congruence|]; split; [apply HK; auto; intros i Ei; exists i; split; [auto|congruence]|];
      rewrite F2; apply meas_on; auto.
    1,3: exists (false :: g); split; [rewrite F1; cbn; congruence|]; split;
      [apply HK; auto; intros i Ei; destruct i as [|i]; [discriminate|]; exists i; split; [exact Ei|rewrite F1; reflexivity]|];
      rewrite F1; apply meas_open; auto; try lia; rewrite <- F1; exact L8'.
    all: rewrite F1 in HG, HO; destruct HO as (O1 & O2 & O3); destruct g as [|x g]; [discriminate|];
      destruct F2 as [(F2 & F3)|[(F2 & F3 & F4 & F5)|(F2 & F3 & F4 & F5)]].
    1,4: exists g; split; [cbn in HG; congruence|]; split;
      [apply HK; auto; intros i Ei; exists (S i); split; [exact Ei|rewrite F1, F3; reflexivity]|];
      rewrite F3, F2, F1; apply meas_pop; auto; lia.
    1,3: exists (false :: g); split; [rewrite F5; cbn in *; congruence|]; split;
      [apply HK; auto; intros i Ei; destruct i as [|i]; [discriminate|]; exists (S i); split; [exact Ei|rewrite F1, F5; reflexivity]|];
      rewrite F5, F1; apply meas_left; [exact HBB| |rewrite <- F1; exact L8];
      unfold left; cbn [snd]; rewrite (proj2 (N.eqb_neq n eof_mark) F2);
      (destruct (N.eqb_spec (n - 1) eof_mark) as [E|E]; [unfold eof_mark in E; lia|lia]).
    - (* a read-to-end loop goes back *)
      assert (x = false) as ->.
      { destruct x; [|auto]. exfalso.
        destruct (HM HE 0%nat eq_refl) as (s1 & h1 & s2 & h2 & t2 & K1 & K2 & K3 & K4 & K5 & K6).
        pose proof (HP _ _ _ _ _ _ _ K1 K2 K3 K4 F5 (eq_sym K5)). lia. }
      exists (true :: g). split; [rewrite F4, F1; cbn in *; congruence|]. split.
      + intros HE' i Ei. destruct i as [|i].
        * exists s, h, s', h', t. split; [auto|]. split; [auto|]. split; [auto|]. split; [constructor|].
          split; [cbn; congruence|auto].
        * destruct (HM HE (S i) Ei) as (s1 & h1 & s2 & h2 & t2 & K1 & K2 & K3 & K4 & K5 & K6).
          exists s1, h1, s2, h2, t2. split; [auto|]. split; [auto|]. split; [auto|].
          split; [eapply reaches_trans; eauto|]. split; congruence.
      + rewrite F4, F1. apply meas_left; [exact HBB| |rewrite <- F1; exact L8].
        unfold left. cbn [snd]. rewrite F2. change (eof_mark =? eof_mark) with true. cbv iota. lia.
    - exfalso. destruct F5 as (_ & _ & F5 & _). unfold byte_pos in F5. rewrite HD in F5. lia.
  Qed.

  Lemma ends fuel : forall s h g, sane s -> lenN (buf s) = D -> reaches host lm bc s0 h0 s h ->
    sorted (ip s) (loops s) -> length g = length (loops s) -> marks s h g -> total s g < N.of_nat fuel ->
    fst (fst (run host lm bc fuel s h)) <> OutOfFuel.
  Proof.
    induction fuel; intros s h g HS HD HR HO HG HM HT; [lia|]. cbn [run].
    destruct (N.leb_spec (lenN bc) (ip s)) as [HI|HI]; [discriminate|].
    destruct (interp host (step lm bc s) h) as [[x h1] t1] eqn:EI.
    destruct x as [s'|e s'|u]; [|discriminate|discriminate].
    destruct (one_step _ _ _ _ _ _ HS HD HI HR HO HG HM EI) as (g' & A1 & A2 & A3 & A4).
    destruct (step_sane _ _ _ _ _ HS HI EI) as (S1 & S2 & _).
    specialize (IHfuel s' h1 g' S1 ltac:(congruence)
      ltac:(eapply reaches_trans; [exact HR|]; eapply reach_step; [constructor|exact HI|exact EI]) A1 A2 A3 ltac:(lia)).
    destruct (run host lm bc fuel s' h1) as [[o h2] t2]. exact IHfuel.
  Qed.
End Runs.

Lemma terminates {H} (host : H -> request -> H * reply) lm bc m data h fuel :
  lenN bc < 2 ^ 62 -> wf_bytes bc -> wf_bytes data ->
  jumps_forward host lm bc (init m data) h -> passes_consume host lm bc (init m data) h ->
  (8 * lenN data + 1) * (lenN bc + 2 ^ 32) ^ 17 <= N.of_nat fuel ->
  fst (fst (run host lm bc fuel (init m data) h)) <> OutOfFuel.
Proof.
  intros BL WB WD HJ HP HF.
  apply (ends host lm bc BL WB (init m data) h HJ HP fuel (init m data) h []).
  - repeat split; cbn; auto; lia.
  - reflexivity.
  - constructor.
  - exact I.
  - reflexivity.
  - intros _ i. destruct i; discriminate.
  - unfold total.
    pose proof (meas_bound (lenN bc + 2 ^ 32) (lenN bc) ltac:(lia) (ip (init m data)) (loops (init m data)) [] ltac:(cbn; lia) I) as MB.
    set (q := (lenN bc + 2 ^ 32) ^ 17) in *. clearbody q. set (mm := meas _ _ _ _ _) in *. clearbody mm.
    cbn [buf init] in *. change (position (init m data)) with 0. rewrite N.sub_0_r. lia.
Qed.
