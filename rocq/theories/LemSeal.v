(** The checksum instructions. *)
From Verif Require Import Base SpecBytes LemBase ModelWord LemWord ModelCrc ModelFloat ModelTrans ModelVM SpecVM SpecCrc
  LemAct LemSafe LemInstr LemCheck LemCrc.
Ltac Zify.zify_post_hook ::= Z.div_mod_to_equations.

Lemma operand_lt bc s i n : wf_bytes bc -> ip s + i + n <= lenN bc -> operand_at bc s i n < 2 ^ (8 * n).
Proof.
  intros WB LE. unfold operand_at. pose proof (val_of_bound Base.LE (sub bc (ip s + i) n) (wf_sub _ _ _ WB)) as V.
  rewrite lenN_sub in V by lia. now rewrite N.pow_mul_r.
Qed.

Section Seal.
  Context {H : Type} (host : H -> request -> H * reply) (lm : libm) (bc : list N).
  Hypothesis WB : wf_bytes bc.

  Lemma crc_size_class op n : crc_size op = Some n -> exists w32, n = wbytes (if w32 : bool then W4 else W2) /\ classify op = CCrc w32 /\
    aligns op = true /\ 8 * n = crc_w w32.
  Proof.
    intros E. unfold crc_size in E.
    repeat match type of E with match ?x with _ => _ end = Some _ => destruct x; try discriminate E end;
    injection E as <-; [exists true|exists false]; repeat split.
  Qed.
  Lemma crc_value s n w32 data : wf_bytes data -> 8 * n = crc_w w32 -> ip s + 2 + 3 * n <= lenN bc ->
    calc_crc data (operand_at bc s 1 n) (operand_at bc s (1 + n) n) (operand_at bc s (1 + 2 * n) n) (operand_at bc s (1 + 3 * n) 1) w32 =
    field_crc bc s n data /\ field_crc bc s n data < 2 ^ (8 * n).
  Proof.
    intros WD EN LI. pose proof (operand_lt bc s 1 n WB ltac:(lia)) as P. pose proof (operand_lt bc s (1 + n) n WB ltac:(lia)) as I.
    pose proof (operand_lt bc s (1 + 2 * n) n WB ltac:(lia)) as X. rewrite EN in *.
    rewrite calc_spec by auto. unfold field_crc, start, crc_start, crc_fast.
    assert (E : w32 = (crc_w w32 =? 32)) by now destruct w32. rewrite EN. rewrite <- E. split; [reflexivity|].
    apply crc_spec_lt; auto; [now destruct w32|]. destruct (_ && _ && _ && _) eqn:F; [|auto]. destruct w32; [apply reversed_lt|discriminate F].
  Qed.
  Lemma crc_enters s n : crc_size (opcode_at bc s) = Some n -> ip s + 2 + 3 * n <= lenN bc -> boff s < 8 -> wf_bytes (buf s) ->
    byte_pos s <= lenN (buf s) ->
    step lm bc s =
      let s1 := aligned s (2 + 3 * n) in
      if lenN (buf s) <? byte_pos s + n then Halt EOob s1
      else let w := if n =? 4 then W4 else W2 in
        let fin s := Cont (set_cur s (cur s + n)) in
        match md s with
        | Enc => let* b := write_word w (en s) (buf s) (byte_pos s) (field_crc bc s n (sub (buf s) 0 (byte_pos s))) in fin (set_buf s1 b)
        | Dec => let* x := read_word w (en s) (buf s) (byte_pos s) in
                 if x =? field_crc bc s n (sub (buf s) 0 (byte_pos s)) then fin s1 else Halt ECrc s1
        end.
  Proof.
    intros HO HI B WF HP. destruct (crc_size_class _ _ HO) as (w32 & EN & EC & EA & EW).
    rewrite (step_at lm bc s _ ltac:(lia) eq_refl), align_eq by auto. rewrite byte_pos_ip. unfold exec_op. rewrite EC.
    unfold crc_op. enter_args. 
    rewrite (fetch_operand _ bc s 1) by (auto; destruct w32; cbn [wbytes] in *; lia). cbn [lift]. rewrite <- EN.
    rewrite <- (N.add_assoc (ip s) 1 n).
    rewrite (fetch_operand _ bc s (1 + n)) by (auto; rewrite <- EN; lia). cbn [lift]. rewrite <- EN.
    replace (ip s + (1 + n) + n) with (ip s + (1 + 2 * n)) by lia.
    rewrite (fetch_operand _ bc s (1 + 2 * n)) by (auto; rewrite <- EN; lia). cbn [lift]. rewrite <- EN.
    replace (ip s + (1 + 2 * n) + n) with (ip s + (1 + 3 * n)) by lia.
    rewrite (fetch_operand W1 bc s (1 + 3 * n)) by (auto; cbn [wbytes]; lia). cbn [lift wbytes].
    replace (ip s + (1 + 3 * n) + 1) with (ip s + (2 + 3 * n)) by lia.
    rewrite slice_eq. destruct (N.leb_spec (0 + byte_pos s) (lenN (buf s))); [|lia]. cbn [lift].
    destruct (crc_value s n w32 (sub (buf s) 0 (byte_pos s)) (wf_sub _ _ _ WF) EW HI) as [V VB]. rewrite V.
    unfold aligned, dlen. cbn [buf cur md en set_ip set_boff set_cur].
    replace (if n =? 4 then W4 else W2) with (if w32 then W4 else W2) by (subst n; now destruct w32).
    unfold trunc. rewrite (N.mod_small (field_crc _ _ _ _)) by auto. reflexivity.
  Qed.
  Lemma crc_enc s h n : crc_size (opcode_at bc s) = Some n -> ip s + 2 + 3 * n <= lenN bc -> boff s < 8 -> wf_bytes (buf s) ->
    md s = Enc -> byte_pos s + n <= lenN (buf s) ->
    let c := field_crc bc s n (sub (buf s) 0 (byte_pos s)) in
    interp host (step lm bc s) h =
      (SCont (set_cur (set_buf (aligned s (2 + 3 * n)) (put (buf s) (byte_pos s) (bytes_of (en s) (N.to_nat n) c))) (byte_pos s + n)), h, []).
  Proof.
    intros HO HI B WF M HP c. rewrite (crc_enters s n) by (auto; lia). cbv zeta. destruct (N.ltb_spec (lenN (buf s)) (byte_pos s + n)); [lia|].
    rewrite M. fold c. rewrite write_word_eq.
    assert (EW : wbytes (if n =? 4 then W4 else W2) = n). { destruct (crc_size_class _ _ HO) as (w32 & EN & _). subst n. now destruct w32. }
    rewrite EW. destruct (N.leb_spec (byte_pos s + n) (lenN (buf s))); [|lia]. cbn [lift interp]. rewrite nbytes_w, EW. reflexivity.
  Qed.
  Lemma crc_dec s h n : crc_size (opcode_at bc s) = Some n -> ip s + 2 + 3 * n <= lenN bc -> boff s < 8 -> wf_bytes (buf s) ->
    md s = Dec -> byte_pos s + n <= lenN (buf s) ->
    let c := field_crc bc s n (sub (buf s) 0 (byte_pos s)) in
    let s1 := aligned s (2 + 3 * n) in
    interp host (step lm bc s) h =
      (if val_of (en s) (sub (buf s) (byte_pos s) n) =? c then SCont (set_cur s1 (byte_pos s + n)) else SHalt ECrc s1, h, []).
  Proof.
    intros HO HI B WF M HP c s1. rewrite (crc_enters s n) by (auto; lia). cbv zeta. destruct (N.ltb_spec (lenN (buf s)) (byte_pos s + n)); [lia|].
    rewrite M. fold c. fold s1. rewrite read_word_eq by auto.
    assert (EW : wbytes (if n =? 4 then W4 else W2) = n). { destruct (crc_size_class _ _ HO) as (w32 & EN & _). subst n. now destruct w32. }
    rewrite EW. destruct (N.leb_spec (byte_pos s + n) (lenN (buf s))); [|lia]. cbn [lift]. destruct (val_of _ _ =? c); reflexivity.
  Qed.
  Lemma crc_short s h n : crc_size (opcode_at bc s) = Some n -> ip s + 2 + 3 * n <= lenN bc -> boff s < 8 -> wf_bytes (buf s) ->
    byte_pos s <= lenN (buf s) -> lenN (buf s) < byte_pos s + n ->
    interp host (step lm bc s) h = (SHalt EOob (aligned s (2 + 3 * n)), h, []).
  Proof.
    intros HO HI B WF HP HS. rewrite (crc_enters s n) by auto. cbv zeta. destruct (N.ltb_spec (lenN (buf s)) (byte_pos s + n)); [reflexivity|lia].
  Qed.
  Lemma crc_bound s n data : crc_size (opcode_at bc s) = Some n -> ip s + 2 + 3 * n <= lenN bc -> wf_bytes data -> field_crc bc s n data < 2 ^ (8 * n).
  Proof. intros HO HI WD. destruct (crc_size_class _ _ HO) as (w32 & EN & _ & _ & EW). now apply (crc_value s n w32). Qed.
End Seal.

Lemma crc_round_trip {H} (host : H -> request -> H * reply) lm bc s h n s' h1 t : wf_bytes bc ->
  crc_size (opcode_at bc s) = Some n -> ip s + 2 + 3 * n <= lenN bc -> boff s < 8 -> wf_bytes (buf s) -> md s = Enc ->
  byte_pos s + n <= lenN (buf s) -> interp host (step lm bc s) h = (SCont s', h1, t) ->
  forall (H2 : Type) (host2 : H2 -> request -> H2 * reply) d g,
  md d = Dec -> boff d < 8 -> ip d = ip s -> en d = en s -> byte_pos d = byte_pos s -> wf_bytes (buf d) ->
  byte_pos s + n <= lenN (buf d) -> sub (buf d) 0 (byte_pos s + n) = sub (buf s') 0 (byte_pos s + n) ->
  interp host2 (step lm bc d) g = (SCont (set_cur (aligned d (2 + 3 * n)) (byte_pos s + n)), g, []) /\ position s' = 8 * (byte_pos s + n).
Proof.
  intros WB HO HI B WF M HP E H2 host2 d g MD BD ID ED PD WD LD SD.
  rewrite (crc_enc host lm bc WB s h n) in E by auto. injection E as <- <- <-. cbn [buf set_cur set_buf] in SD.
  set (c := field_crc bc s n (sub (buf s) 0 (byte_pos s))) in *.
  assert (CB : c < 2 ^ (8 * n)) by (apply (crc_bound); auto; now apply wf_sub).
  assert (LC : lenN (bytes_of (en s) (N.to_nat n) c) = n) by (rewrite lenN_bytes_of; lia).
  assert (OP : opcode_at bc d = opcode_at bc s) by (unfold opcode_at; now rewrite ID).
  assert (HEAD : sub (buf d) 0 (byte_pos s) = sub (buf s) 0 (byte_pos s)).
  { apply nthN_ext; rewrite !lenN_sub by lia; auto. intros i Hi. rewrite !nthN_sub by lia.
    assert (X : nthN (sub (buf d) 0 (byte_pos s + n)) i = nthN (sub (put (buf s) (byte_pos s) (bytes_of (en s) (N.to_nat n) c)) 0 (byte_pos s + n)) i) by now rewrite SD.
    rewrite !nthN_sub in X by lia. rewrite X, nthN_put by lia. destruct (N.leb_spec (byte_pos s) (0 + i)); [lia|reflexivity]. }
  assert (TAIL : sub (buf d) (byte_pos s) n = bytes_of (en s) (N.to_nat n) c).
  { apply nthN_ext; rewrite !lenN_sub by lia; [auto|]. intros i Hi. rewrite nthN_sub by lia.
    assert (X : nthN (sub (buf d) 0 (byte_pos s + n)) (byte_pos s + i) = nthN (sub (put (buf s) (byte_pos s) (bytes_of (en s) (N.to_nat n) c)) 0 (byte_pos s + n)) (byte_pos s + i)) by now rewrite SD.
    rewrite !nthN_sub in X by lia. rewrite !N.add_0_l in X. rewrite X, nthN_put by lia.
    destruct (N.leb_spec (byte_pos s) (byte_pos s + i)); [|lia]. destruct (N.ltb_spec (byte_pos s + i) (byte_pos s + lenN (bytes_of (en s) (N.to_nat n) c))); [|lia].
    cbn [andb]. f_equal. lia. }
  split.
  - rewrite (crc_dec host2 lm bc WB d g n) by (auto; rewrite ?OP, ?ID, ?PD; auto; lia). rewrite PD, ED, HEAD, TAIL.
    assert (FC : field_crc bc d n (sub (buf s) 0 (byte_pos s)) = c) by (unfold field_crc, operand_at; rewrite ID; reflexivity).
    rewrite FC, val_bytes, N2Nat.id. replace (256 ^ n) with (2 ^ (8 * n)) by (rewrite N.pow_mul_r; reflexivity). rewrite N.mod_small by auto. now rewrite N.eqb_refl.
  - unfold position. cbn [cur boff set_cur set_buf aligned set_ip set_boff]. lia.
Qed.

Lemma field_detects bc s n a b k : wf_bytes bc -> crc_size (opcode_at bc s) = Some n -> ip s + 2 + 3 * n <= lenN bc ->
  N.odd (operand_at bc s 1 n) = true -> wf_bytes a -> wf_bytes b -> lenN a = lenN b -> a <> b ->
  let order := N.testbit (operand_at bc s (1 + 3 * n) 1) 0 in
  (forall i, i < 8 * lenN a -> message_bit order a i <> message_bit order b i -> k <= i < k + 8 * n) ->
  field_crc bc s n a <> field_crc bc s n b.
Proof.
  intros WB HO HI OD WA WB' LE NE order WN. destruct (crc_size_class _ _ HO) as (w32 & EN & _ & _ & EW).
  rewrite <- (proj1 (crc_value bc WB s n w32 a WA EW HI)), <- (proj1 (crc_value bc WB s n w32 b WB' EW HI)).
  rewrite <- N.bit0_odd in OD.
  apply detects with (k := k); auto; rewrite <- ?EW; try (apply operand_lt; auto; lia). exact WN.
Qed.
Lemma bit_window a b i : (forall j, j < 8 * lenN a -> j <> i -> message_bit false a j = message_bit false b j) ->
  forall j, j < 8 * lenN a -> message_bit false a j <> message_bit false b j -> i <= j < i + 1.
Proof. intros E j Hj NE. destruct (N.eq_dec j i) as [->|]; [lia|]. now rewrite E in NE. Qed.
Lemma corrupted {H} (host : H -> request -> H * reply) lm bc s h n s' h1 t k b : wf_bytes bc ->
  crc_size (opcode_at bc s) = Some n -> ip s + 2 + 3 * n <= lenN bc -> N.odd (operand_at bc s 1 n) = true ->
  boff s < 8 -> wf_bytes (buf s) -> md s = Dec -> byte_pos s + n <= lenN (buf s) ->
  interp host (step lm bc s) h = (SCont s', h1, t) ->
  wf_bytes b -> lenN b = byte_pos s -> b <> sub (buf s) 0 (byte_pos s) ->
  let order := N.testbit (operand_at bc s (1 + 3 * n) 1) 0 in
  (forall i, i < 8 * byte_pos s -> message_bit order (sub (buf s) 0 (byte_pos s)) i <> message_bit order b i -> k <= i < k + 8 * n) ->
  interp host (step lm bc (set_buf s (put (buf s) 0 b))) h = (SHalt ECrc (set_buf (aligned s (2 + 3 * n)) (put (buf s) 0 b)), h, []).
Proof.
  intros WB HO HI OD B WF M HP E WC LC NE order WN.
  rewrite (crc_dec host lm bc WB s h n) in E by auto.
  set (c := field_crc bc s n (sub (buf s) 0 (byte_pos s))) in *.
  destruct (N.eqb_spec (val_of (en s) (sub (buf s) (byte_pos s) n)) c) as [V|]; [|discriminate E].
  set (s2 := set_buf s (put (buf s) 0 b)). assert (PB : byte_pos s2 = byte_pos s) by reflexivity.
  assert (L2 : lenN (buf s2) = lenN (buf s)) by (unfold s2; cbn [buf set_buf]; apply lenN_put; lia).
  assert (HEAD : sub (buf s2) 0 (byte_pos s) = b).
  { unfold s2. cbn [buf set_buf]. rewrite <- LC. apply sub_put_same. lia. }
  assert (TAIL : sub (buf s2) (byte_pos s) n = sub (buf s) (byte_pos s) n).
  { apply nthN_ext; rewrite !lenN_sub by lia; auto. intros i Hi. rewrite !nthN_sub by lia. unfold s2. cbn [buf set_buf]. rewrite nthN_put by lia.
    destruct (N.leb_spec 0 (byte_pos s + i)), (N.ltb_spec (byte_pos s + i) (0 + lenN b)); try lia; reflexivity. }
  rewrite (crc_dec host lm bc WB s2 h n); auto; rewrite ?PB, ?L2; auto.
  2: { unfold s2. cbn [buf set_buf]. apply wf_put; auto. lia. }
  rewrite HEAD, TAIL. change (en s2) with (en s). rewrite V.
  destruct (N.eqb_spec c (field_crc bc s2 n b)) as [EQ|]; [|reflexivity]. exfalso.
  change (field_crc bc s2 n b) with (field_crc bc s n b) in EQ. revert EQ. unfold c.
  apply field_detects with (k := k); auto; [now apply wf_sub|rewrite lenN_sub by lia; auto|]. rewrite lenN_sub by lia. exact WN.
Qed.
