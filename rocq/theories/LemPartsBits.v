(** Running bit fields. *)
From Coq Require Import ZifyBool ZifyNat ZifyN.
From Verif Require Import Base SpecBytes LemBase ModelWord LemWord ModelBits LemBits ModelFloat ModelTrans ModelVM SpecVM LemAct LemSafe LemRun LemWire LemInstr LemField LemCheck LemStr LemArr
  SpecParse SpecNames SpecPacket SpecFlow SpecMessage LemFlow LemImage LemSend LemMessage SpecNest SpecParts.
Ltac Zify.zify_post_hook ::= Z.div_mod_to_equations.

(** ** Lists of bits *)
Lemma lenN_upto n : lenN (upto n) = n.
Proof. unfold upto, lenN. rewrite map_length, seq_length. lia. Qed.
Lemma nth_upto n k d : k < n -> nth (N.to_nat k) (upto n) d = k.
Proof. intros L. unfold upto. rewrite nth_indep with (d' := N.of_nat 0) by (rewrite map_length, seq_length; lia). rewrite map_nth, seq_nth by lia. lia. Qed.
Lemma lenN_map_bits {A B} (f : A -> B) l : lenN (map f l) = lenN l.
Proof. unfold lenN. now rewrite map_length. Qed.
Lemma lenN_bits_of e w v : lenN (bits_of e w v) = w.
Proof. unfold bits_of. now rewrite lenN_map_bits, lenN_upto. Qed.
Lemma nth_bits_of e w v k : k < w -> nth (N.to_nat k) (bits_of e w v) false = N.testbit v (match e with LE => k | BE => w - 1 - k end).
Proof.
  intros L. unfold bits_of. set (f := fun i => N.testbit v _). rewrite nth_indep with (d' := f 0) by (rewrite map_length; pose proof (lenN_upto w); unfold lenN in *; lia).
  rewrite map_nth, nth_upto by auto. reflexivity.
Qed.
Lemma nth_repeat_bits (b : bool) n k : (k < n)%nat -> nth k (repeat b n) false = b.
Proof. revert k. induction n; intros [|k] L; try lia; cbn; auto. apply IHn. lia. Qed.
Lemma lenN_repeat_bits (b : bool) n : lenN (repeat b (N.to_nat n)) = n.
Proof. unfold lenN. rewrite repeat_length. lia. Qed.
Lemma nth_two {A} (a b : list A) k d : nth (N.to_nat k) (a ++ b) d = if k <? lenN a then nth (N.to_nat k) a d else nth (N.to_nat (k - lenN a)) b d.
Proof.
  unfold lenN. destruct (N.ltb_spec k (N.of_nat (length a))); [rewrite app_nth1 by lia; reflexivity|]. rewrite app_nth2 by lia. f_equal. lia.
Qed.
Lemma stream_len e a l : forall vs, lenN (stream_of e a l vs) = lenN (stream_of LE a l vs).
Proof.
  revert a. induction l as [|[sg w n|w|b] l IH]; intros a vs; [reflexivity| | |]; cbn [stream_of].
  - destruct vs; [reflexivity|]. rewrite !lenN_app, !lenN_bits_of, IH. reflexivity.
  - rewrite !lenN_app, IH. reflexivity.
  - rewrite !lenN_app, IH. reflexivity.
Qed.

(** ** Packing *)
Definition byte8 (e : endian) (f : N -> bool) : N :=
  fold_right (fun i a => (if f i then 2 ^ (match e with LE => i | BE => 7 - i end) else 0) + a) 0 [0; 1; 2; 3; 4; 5; 6; 7].
Lemma byte8_facts e f : byte8 e f < 256 /\ forall k, k < 8 -> N.testbit (byte8 e f) (inpos e k) = f k.
Proof.
  unfold byte8. cbn [fold_right].
  assert (T : forall b0 b1 b2 b3 b4 b5 b6 b7 : bool, f 0 = b0 -> f 1 = b1 -> f 2 = b2 -> f 3 = b3 -> f 4 = b4 -> f 5 = b5 -> f 6 = b6 -> f 7 = b7 ->
    let x := (if b0 then 2 ^ (match e with LE => 0 | BE => 7 - 0 end) else 0) + ((if b1 then 2 ^ (match e with LE => 1 | BE => 7 - 1 end) else 0) + ((if b2 then 2 ^ (match e with LE => 2 | BE => 7 - 2 end) else 0) +
      ((if b3 then 2 ^ (match e with LE => 3 | BE => 7 - 3 end) else 0) + ((if b4 then 2 ^ (match e with LE => 4 | BE => 7 - 4 end) else 0) + ((if b5 then 2 ^ (match e with LE => 5 | BE => 7 - 5 end) else 0) +
      ((if b6 then 2 ^ (match e with LE => 6 | BE => 7 - 6 end) else 0) + ((if b7 then 2 ^ (match e with LE => 7 | BE => 7 - 7 end) else 0) + 0))))))) in
    x < 256 /\ forall k, k < 8 -> N.testbit x (inpos e k) = f k).
  { intros b0 b1 b2 b3 b4 b5 b6 b7 E0 E1 E2 E3 E4 E5 E6 E7 x.
    assert (Q : x < 256 /\ map (fun k => N.testbit x (inpos e k)) [0; 1; 2; 3; 4; 5; 6; 7] = [b0; b1; b2; b3; b4; b5; b6; b7]).
    { unfold x. clear. destruct e, b0, b1, b2, b3, b4, b5, b6, b7; vm_compute; split; reflexivity. }
    destruct Q as (Q1 & Q2). split; [exact Q1|]. cbn [map] in Q2. injection Q2 as Q0 Qa Qb Qc Qd Qe Qf Qg. intros k L.
    assert (k = 0 \/ k = 1 \/ k = 2 \/ k = 3 \/ k = 4 \/ k = 5 \/ k = 6 \/ k = 7) as K by lia.
    destruct K as [-> | [-> | [-> | [-> | [-> | [-> | [-> | ->]]]]]]]; congruence. }
  apply T; reflexivity.
Qed.
Lemma byte_of_8 e l : byte_of e l = byte8 e (fun i => nth (N.to_nat i) l false).
Proof. reflexivity. Qed.
Lemma lenN_packed e l : lenN (packed e l) = lenN l / 8.
Proof. unfold packed. now rewrite lenN_map_bits, lenN_upto. Qed.
Lemma wf_packed e l : wf_bytes (packed e l).
Proof. apply Forall_forall. intros x I. apply in_map_iff in I as (i & <- & _). rewrite byte_of_8. apply byte8_facts. Qed.
Lemma nthN_packed e l i : i < lenN l / 8 -> nthN (packed e l) i = byte_of e (skipn (8 * N.to_nat i) l).
Proof.
  intros L. unfold nthN, packed. set (f := fun i => byte_of e _). rewrite nth_indep with (d' := f 0) by (rewrite map_length; pose proof (lenN_upto (lenN l / 8)); unfold lenN in *; lia).
  rewrite map_nth, nth_upto by auto. reflexivity.
Qed.
Lemma nth_skipn_bits (l : list bool) n k d : nth k (skipn n l) d = nth (n + k) l d.
Proof. revert l. induction n; intros l; [reflexivity|]. destruct l; [destruct k; reflexivity|]. cbn [skipn Nat.add nth]. apply IHn. Qed.
Lemma sbit_packed e l j : j < 8 * (lenN l / 8) -> sbit e (packed e l) j = nth (N.to_nat j) l false.
Proof.
  intros L. rewrite sbit_eq, nthN_packed by lia. rewrite byte_of_8, (proj2 (byte8_facts _ _)) by lia. rewrite nth_skipn_bits. f_equal. lia.
Qed.

(** ** Bits written at a position *)
Definition laid (e : endian) (b b' : list N) (p : N) (x : list bool) : Prop :=
  wf_bytes b' /\ lenN b' = lenN b /\ forall j, sbit e b' j = if (p <=? j) && (j <? p + lenN x) then nth (N.to_nat (j - p)) x false else sbit e b j.
Lemma laid_nil e b p : wf_bytes b -> laid e b b p [].
Proof. intros W. split; [exact W|]. split; [reflexivity|]. intros j. change (lenN (@nil bool)) with 0. destruct (_ && _) eqn:E; [lia|reflexivity]. Qed.
Lemma laid_app e b b1 b2 p x y : laid e b b1 p x -> laid e b1 b2 (p + lenN x) y -> laid e b b2 p (x ++ y).
Proof.
  intros (W & L & A) (W' & L' & B). split; [exact W'|]. split; [congruence|]. intros j. rewrite B, A, lenN_app, nth_two.
  destruct (N.leb_spec (p + lenN x) j), (N.ltb_spec j (p + lenN x + lenN y)), (N.leb_spec p j), (N.ltb_spec j (p + lenN x)), (N.ltb_spec j (p + (lenN x + lenN y))), (N.ltb_spec (j - p) (lenN x));
    cbn [andb]; try lia; try reflexivity. f_equal. lia.
Qed.
Lemma laid_same e b p x : wf_bytes b -> (forall k, k < lenN x -> sbit e b (p + k) = nth (N.to_nat k) x false) -> laid e b b p x.
Proof.
  intros W A. split; [exact W|]. split; [reflexivity|]. intros j. destruct (_ && _) eqn:E; [|reflexivity]. rewrite <- A by lia. f_equal. lia.
Qed.
Lemma laid_packed e a old b' x : wf_bytes (a ++ old) -> lenN x mod 8 = 0 -> lenN x / 8 <= lenN old -> laid e (a ++ old) b' (8 * lenN a) x ->
  b' = a ++ after (packed e x) old.
Proof.
  intros W M LO (W' & L & A). pose proof (lenN_packed e x) as LP. unfold after. rewrite LP. set (rest := skipn _ old).
  assert (LR : lenN rest = lenN old - lenN x / 8) by (unfold rest, lenN; rewrite skipn_length; lia).
  assert (OE : old = firstn (N.to_nat (lenN x / 8)) old ++ rest) by (symmetry; apply firstn_skipn). set (front := firstn _ old) in OE.
  assert (LF : lenN front = lenN x / 8) by (unfold front, lenN in *; rewrite firstn_length; lia).
  apply Forall_app in W as (WA & WO). rewrite OE in WO. apply Forall_app in WO as (_ & WR).
  apply (sbit_ext e); auto.
  - apply Forall_app. split; [exact WA|]. apply Forall_app. split; [apply wf_packed|exact WR].
  - rewrite L, !lenN_app. lia.
  - intros j J. rewrite A, !sbit_eq. rewrite OE at 1.
    destruct ((8 * lenN a <=? j) && (j <? 8 * lenN a + lenN x)) eqn:E.
    + rewrite <- (sbit_packed e) by lia. rewrite sbit_eq. unfold nthN. rewrite !nth_two.
      destruct (N.ltb_spec (j / 8) (lenN a)); [lia|]. destruct (N.ltb_spec (j / 8 - lenN a) (lenN (packed e x))); [|lia]. f_equal; [f_equal; lia|f_equal; lia].
    + unfold nthN. rewrite !nth_two. destruct (N.ltb_spec (j / 8) (lenN a)); [reflexivity|].
      destruct (N.ltb_spec (j / 8 - lenN a) (lenN front)), (N.ltb_spec (j / 8 - lenN a) (lenN (packed e x))); try lia. now rewrite LF, LP.
Qed.

(** ** Steps *)
Definition in_bits (s : st) (m : mode) (o : endian) (q : N) (L : list (N * N)) (b : list N) : Prop :=
  md s = m /\ tr s = TNone /\ boff s < 8 /\ en s = o /\ ip s = q /\ loops s = L /\ buf s = b.
Definition bit_wf (id : list N -> N) (b : bitpart) : Prop :=
  match b with Bit _ w n => 1 <= w <= 64 /\ id n < 65536 | Pad w => w <= 64 | Fill _ => True end.
Lemma toS_eq v v' : v < 2 ^ 64 -> v' < 2 ^ 64 -> toS 8 v = toS 8 v' -> v = v'.
Proof. intros A B E. rewrite <- (ofZ_toS 8 v), <- (ofZ_toS 8 v') by (auto; lia). now rewrite E. Qed.
Lemma number8 v : number 8 true v = toS 8 v.
Proof. unfold number, toS. cbn [andb]. rewrite N.ltb_antisym. destruct (_ <=? v); reflexivity. Qed.
Section Steps.
  Context {H : Type} (host : H -> request -> H * reply) (lm : libm) (bc : list N).
  Hypothesis WB : wf_bytes bc.
  Notation steps := (steps host lm bc).

  Lemma put_laid e b c o v n : wf_bytes b -> o < 8 -> n <= 64 -> 8 * c + o + n <= 8 * lenN b ->
    exists b' c' o', write_bits e b c o v n = Ok (b', c', o') /\ o' < 8 /\ 8 * c' + o' = 8 * c + o + n /\ laid e b b' (8 * c + o) (bits_of e n v).
  Proof.
    intros W O HN HL. pose proof (write_bits_spec e b c o v n W O) as X. cbv zeta in X. destruct (write_bits e b c o v n) as [[[b' c'] o']|u]; [|lia].
    rewrite N.min_l in X by lia. destruct X as (X1 & X2 & X3 & X4 & X5). exists b', c', o'. repeat split; auto. intros j. rewrite X5, lenN_bits_of.
    destruct (_ && _) eqn:E; [|reflexivity]. rewrite nth_bits_of by lia. unfold wbit. destruct e; reflexivity.
  Qed.
  Lemma get_value e b c o n v : wf_bytes b -> o < 8 -> n <= 64 -> 8 * c + o + n <= 8 * lenN b ->
    (forall k, k < n -> sbit e b (8 * c + o + k) = nth (N.to_nat k) (bits_of e n v) false) ->
    exists c' o', read_bits e b c o n = Ok (v mod 2 ^ n, c', o') /\ o' < 8 /\ 8 * c' + o' = 8 * c + o + n.
  Proof.
    intros W O HN HL A. destruct (read_bits_value e b c o n (fun _ => false) W O HN HL) as (x & c' & o' & E & O' & P & V). exists c', o'. rewrite E. repeat split; auto.
    f_equal. f_equal. f_equal. apply N.bits_inj. intros k. rewrite V. destruct (N.ltb_spec k n) as [K|K]; cbn [andb].
    - rewrite N.mod_pow2_bits_low by auto. destruct e.
      + rewrite A, nth_bits_of by lia. reflexivity.
      + rewrite A, nth_bits_of by lia. f_equal. lia.
    - now rewrite N.mod_pow2_bits_high.
  Qed.

  Lemma bit_steps q sg w k s h h1 r m o L bf v : placed bc q (code [ins (if sg : bool then 0x21 else 0x20) [k] [w]]) -> 1 <= w <= 64 -> k < 65536 ->
    in_bits s m o q L bf -> wf_bytes bf -> position s + w <= 8 * lenN bf -> bit_fits sg w v ->
    (m = Dec -> forall i, i < w -> sbit o bf (position s + i) = nth (N.to_nat i) (bits_of o w v) false) ->
    host h (ask k (if sg then 0x21 else 0x20) (cvar 8 (match m with Enc => 0 | Dec => v end)) (if sg then HBitI w else HBitU w)) = (h1, r) -> r_ok r = true ->
    (m = Enc -> answer 8 0 r = v) ->
    exists s' bf', steps 1 s h s' h1 [(ask k (if sg then 0x21 else 0x20) (cvar 8 (match m with Enc => 0 | Dec => v end)) (if sg then HBitI w else HBitU w), r)] /\
      in_bits s' m o (q + 4) L bf' /\ position s' = position s + w /\ laid o bf bf' (position s) (bits_of o w v).
  Proof.
    intros P HW HK (I1 & I2 & I3 & I4 & I5 & I6 & I7) WF LB FT DC HH HR EC. set (op := if sg then 0x21 else 0x20) in *.
    assert (PK : placed bc q (op :: le_bytes 2 k ++ [w])) by (cbn [code flat_map instr_bytes opcode refs args ins map] in P; rewrite ?app_nil_r in P; exact P).
    pose proof (placed_le _ _ _ PK) as QL. change (lenN (op :: le_bytes 2 k ++ [w])) with 4 in QL.
    destruct (placed_key bc q op k _ PK HK s I5) as (HO & KA & _).
    assert (HN : nthN bc (ip s + 3) = w).
    { rewrite I5. change (op :: le_bytes 2 k ++ [w]) with ((op :: le_bytes 2 k) ++ [w]) in PK. apply placed_app in PK as (_ & PK). apply placed_one in PK as (PK & _). exact PK. }
    assert (OC : op = 0x20 \/ op = 0x21) by (unfold op; destruct sg; auto). unfold position in *.
    destruct m.
    - pose proof (bit_enc host lm bc WB s h h1 r op) as X. cbv zeta in X. rewrite HN, KA, I4, I7 in X.
      destruct (put_laid o bf (cur s) (boff s) v w WF I3 ltac:(lia) ltac:(lia)) as (b' & c' & o' & E & O' & PP & LD).
      specialize (X b' c' o' HO OC ltac:(lia) I1). change (got W8 0 r) with (answer 8 0 r) in X. rewrite EC in X by reflexivity.
      assert (EH : (if op =? 32 then HBitU w else HBitI w) = (if sg then HBitI w else HBitU w)) by (unfold op; destruct sg; reflexivity). rewrite EH in X.
      eexists _, b'. split; [apply steps_one; [lia|lia|]|].
      { apply X; auto. }
      split; [|split; [cbn [at_bits cur boff]; lia|exact LD]]. unfold in_bits, at_bits. cbn [md tr boff en ip loops buf]. rewrite I5. auto 10.
    - specialize (DC eq_refl). destruct (get_value o bf (cur s) (boff s) w v WF I3 ltac:(lia) ltac:(lia) DC) as (c' & o' & E & O' & PP).
      exists (at_bits s 4 bf c' o'), bf. split; [apply steps_one; [lia|lia|]|].
      2:{ split; [|split; [cbn [at_bits cur boff]; lia|apply laid_same; [exact WF|rewrite lenN_bits_of; exact DC]]]. unfold in_bits, at_bits. cbn [md tr boff en ip loops buf]. rewrite I5. auto 10. }
      unfold bit_fits in FT. unfold op in *. destruct sg.
      + destruct FT as (VB & RG). rewrite number8 in RG.
        destruct (sign_extend_spec (toS 8 v) w ltac:(lia)) as (v' & SE & VB' & SV). rewrite ofZ_toS in SE by (auto; lia).
        assert (VV : v' = v).
        { apply toS_eq; auto. rewrite SV. rewrite Z.mod_small; [lia|]. replace (2 ^ Z.of_N w)%Z with (2 * 2 ^ (Z.of_N w - 1))%Z by (rewrite <- Z.pow_succ_r by lia; f_equal; lia). lia. }
        subst v'. pose proof (bit_i_dec host lm bc WB s h h1 r (v mod 2 ^ w) v c' o' HO ltac:(lia) I1) as X. cbv zeta in X. rewrite HN, KA, I4, I7 in X. apply X; auto.
      + pose proof (bit_u_dec host lm bc WB s h h1 r v c' o' HO ltac:(lia) I1) as X. cbv zeta in X. rewrite HN, KA, I4, I7 in X. rewrite N.mod_small in E by auto. apply X; auto.
  Qed.
  Lemma pad_steps q op x s h m o L bf (b := if op =? 0x23 then false else negb (x =? 0)) (w := if op =? 0x23 then x else (8 - boff s) mod 8) :
    placed bc q (code [ins op [] [x]]) -> op = 0x23 \/ op = 0x24 -> w <= 64 -> in_bits s m o q L bf -> wf_bytes bf -> position s + w <= 8 * lenN bf ->
    (m = Dec -> forall i, i < w -> sbit o bf (position s + i) = b) ->
    exists s' bf', steps 1 s h s' h [] /\ in_bits s' m o (q + 2) L bf' /\ position s' = position s + w /\ laid o bf bf' (position s) (repeat b (N.to_nat w)).
  Proof.
    intros P OC HW (I1 & I2 & I3 & I4 & I5 & I6 & I7) WF LB DC.
    assert (PK : placed bc q [op; x]) by exact P. clear P.
    pose proof (placed_le _ _ _ PK) as QL. change (lenN [op; x]) with 2 in QL. apply placed_one in PK as (HO & PK). apply placed_one in PK as (HX & _).
    rewrite <- I5 in HO, HX. change (opcode_at bc s = op) in HO.
    assert (SAME : m = Dec -> laid o bf bf (position s) (repeat b (N.to_nat w))).
    { intros E. apply laid_same; [exact WF|]. rewrite lenN_repeat_bits. intros k K. rewrite nth_repeat_bits by lia. now apply DC. }
    assert (BITS : forall v, (forall k, k < w -> N.testbit v k = b) -> bits_of o w v = repeat b (N.to_nat w)).
    { intros v T. apply nth_ext with (d := false) (d' := false); [pose proof (lenN_bits_of o w v); unfold lenN in *; rewrite repeat_length; lia|].
      intros k K. pose proof (lenN_bits_of o w v) as LL. unfold lenN in LL. rewrite nth_repeat_bits by lia. replace k with (N.to_nat (N.of_nat k)) by lia. rewrite nth_bits_of by lia. destruct o; apply T; lia. }
    assert (ST : forall s1, interp host (step lm bc s) h = (SCont s1, h, []) -> steps 1 s h s1 h []) by (intros s1 E; apply steps_one; [lia|lia|exact E]).
    rewrite (step_at lm bc s op) in ST by (auto; lia). unfold position in *.
    destruct OC as [-> | ->]; rewrite align_no in ST by reflexivity; unfold exec_op in ST;
      match type of ST with context [classify ?x] => let y := eval vm_compute in (classify x) in change (classify x) with y in ST end; cbv iota in ST.
    - change (0x23 =? 0x23) with true in *. cbv iota in *. unfold align_pad in ST. cbn [ip set_ip] in ST.
      rewrite fetch_byte in ST by (auto; lia). cbn [lift] in ST. rewrite HX in ST. cbn [md set_ip] in ST. rewrite I1 in ST. destruct m.
      + destruct (put_laid o bf (cur s) (boff s) 0 w WF I3 ltac:(lia) ltac:(lia)) as (b' & c' & o' & E & O' & PP & LD).
        unfold put_bits in ST. cbn [en buf cur boff set_ip] in ST. rewrite I4, I7 in ST. fold w in ST. rewrite E in ST. cbn [lift interp] in ST.
        eexists _, b'. split; [apply ST; reflexivity|]. rewrite BITS in LD by (intros; apply N.bits_0). split; [|split; [|exact LD]]; unfold in_bits; cbn [md tr boff en ip loops buf cur set_ip set_cur set_boff set_buf]; [rewrite I5; repeat split; auto; lia|lia].
      + cbn [interp] in ST. eexists _, bf. split; [apply ST; reflexivity|]. split; [|split; [|exact (SAME eq_refl)]]; unfold in_bits; cbn [md tr boff en ip loops buf cur set_ip set_cur set_boff set_buf]; [rewrite I5; repeat split; auto; lia|fold w; lia].
    - change (0x24 =? 0x23) with false in *. cbv iota in *. unfold align_fill in ST. cbn [ip set_ip] in ST.
      rewrite fetch_byte in ST by (auto; lia). cbn [lift] in ST. rewrite HX in ST. cbn [md boff set_ip] in ST. rewrite I1 in ST. destruct (N.ltb_spec 0 (boff s)).
      + assert (EW : 8 - boff s = w) by (unfold w; lia). rewrite EW in ST. destruct m.
        * set (v := if x =? 0 then 0 else 2 ^ 64 - 1) in ST. destruct (put_laid o bf (cur s) (boff s) v w WF I3 ltac:(lia) ltac:(lia)) as (b' & c' & o' & E & O' & PP & LD).
          unfold put_bits in ST. cbn [en buf cur boff set_ip] in ST. rewrite I4, I7, E in ST. cbn [lift interp] in ST.
          eexists _, b'. split; [apply ST; reflexivity|]. rewrite BITS in LD.
          2:{ intros k HK. unfold v, b. destruct (x =? 0); [apply N.bits_0|]. change (2 ^ 64 - 1) with (N.ones 64). apply N.ones_spec_low. lia. }
          split; [|split; [|exact LD]]; unfold in_bits; cbn [md tr boff en ip loops buf cur set_ip set_cur set_boff set_buf]; [rewrite I5; repeat split; auto; lia|lia].
        * unfold get_bits in ST. cbn [en buf cur boff set_ip] in ST. rewrite I4, I7 in ST.
          pose proof (read_bits_spec o bf (cur s) (boff s) w WF I3) as X. cbv zeta in X.
          destruct (read_bits o bf (cur s) (boff s) w) as [[[v c] z]|u]; [|lia]. destruct X as (X1 & X2 & _). cbn [lift interp] in ST.
          rewrite N.min_l in X2 by lia. eexists _, bf. split; [apply ST; reflexivity|]. split; [|split; [|exact (SAME eq_refl)]]; unfold in_bits; cbn [md tr boff en ip loops buf cur set_ip set_cur set_boff set_buf]; [rewrite I5; repeat split; auto; lia|lia].
      + assert (EW : w = 0) by (unfold w; lia). cbn [interp] in ST. eexists _, bf. split; [apply ST; reflexivity|]. rewrite EW. change (repeat b (N.to_nat 0)) with (@nil bool).
        split; [|split; [|now apply laid_nil]]; unfold in_bits; cbn [md tr boff en ip loops buf cur set_ip set_cur set_boff set_buf]; [rewrite I5; repeat split; auto; lia|lia].
  Qed.

  Lemma bits_steps m id l : forall vs a q s h h' t o L bf, bits_said m id l vs t -> bits_ok l vs -> Forall (bit_wf id) l ->
    placed bc q (code (map (bit_instr id) l)) -> in_bits s m o q L bf -> wf_bytes bf -> position s mod 8 = a mod 8 ->
    position s + lenN (stream_of o a l vs) <= 8 * lenN bf ->
    (m = Dec -> forall k, k < lenN (stream_of o a l vs) -> sbit o bf (position s + k) = nth (N.to_nat k) (stream_of o a l vs) false) -> plays host h t h' ->
    exists n s' bf', steps n s h s' h' t /\ in_bits s' m o (q + lenN (code (map (bit_instr id) l))) L bf' /\
      position s' = position s + lenN (stream_of o a l vs) /\ laid o bf bf' (position s) (stream_of o a l vs).
  Proof.
    induction l as [|b l IH]; intros vs a q s h h' t o L bf SD OK WFS P I WF PM LB DC PL.
    - destruct vs; [|destruct OK]. cbn [bits_said] in SD. subst t. inversion PL; subst. exists 0%nat, s, bf. split; [constructor|]. cbn [stream_of map]. change (lenN (code [])) with 0. change (lenN (@nil bool)) with 0.
      rewrite !N.add_0_r. split; [exact I|]. split; [reflexivity|]. now apply laid_nil.
    - pose proof (Forall_inv WFS) as WH. apply Forall_inv_tail in WFS. cbn [map] in P |- *. rewrite code_cons in P |- *. apply placed_app in P as (P1 & P2).
      assert (NEXT : forall x vs1 te h1 s1 bf1 tl a1, stream_of o a (b :: l) vs = x ++ stream_of o a1 l vs1 -> t = te ++ tl ->
        steps 1 s h s1 h1 te -> in_bits s1 m o (q + lenN (instr_bytes (bit_instr id b))) L bf1 -> position s1 = position s + lenN x -> laid o bf bf1 (position s) x ->
        bits_said m id l vs1 tl -> bits_ok l vs1 -> (a + lenN x) mod 8 = a1 mod 8 -> plays host h1 tl h' ->
        exists n s' bf', steps n s h s' h' t /\ in_bits s' m o (q + lenN (instr_bytes (bit_instr id b) ++ code (map (bit_instr id) l))) L bf' /\
          position s' = position s + lenN (stream_of o a (b :: l) vs) /\ laid o bf bf' (position s) (stream_of o a (b :: l) vs)).
      { intros x vs1 te h1 s1 bf1 tl a1 EX -> S1 I1 PX LX SD1 OK1 MA PL1. rewrite EX in LB, DC |- *. rewrite !lenN_app in *. pose proof LX as (WX & LL & BX).
        destruct (IH vs1 a1 _ s1 h1 h' tl o L bf1 SD1 OK1 WFS P2 I1 WX) as (n & s2 & bf2 & S2 & I2 & PX2 & LX2); auto.
        - rewrite PX. lia.
        - rewrite PX, LL. lia.
        - intros E k K. rewrite PX, BX. destruct (_ && _) eqn:EE; [lia|]. rewrite <- N.add_assoc. rewrite (DC E) by lia. rewrite nth_two. destruct (N.ltb_spec (lenN x + k) (lenN x)); [lia|]. f_equal. lia.
        - exists (1 + n)%nat, s2, bf2. split; [eapply steps_trans; eauto|]. split; [rewrite N.add_assoc; exact I2|]. split; [rewrite PX2, PX; lia|]. rewrite PX in LX2. eapply laid_app; eauto. }
      assert (DX : forall x y, stream_of o a (b :: l) vs = x ++ y -> m = Dec -> forall k, k < lenN x -> sbit o bf (position s + k) = nth (N.to_nat k) x false).
      { intros x y EX E k K. rewrite EX in DC. rewrite (DC E) by (rewrite lenN_app; lia). rewrite nth_two. destruct (N.ltb_spec k (lenN x)); [reflexivity|lia]. }
      assert (LX : forall x y, stream_of o a (b :: l) vs = x ++ y -> position s + lenN x <= 8 * lenN bf) by (intros x y EX; rewrite EX, lenN_app in LB; lia).
      assert (B8 : boff s = a mod 8) by (unfold position in PM; destruct I as (_ & _ & I3 & _); lia).
      destruct b as [sg w n|w|b]; cbn [bits_said bits_ok bit_wf bit_instr] in *.
      + destruct vs as [|v vs]; [destruct SD|]. destruct SD as (r & tl & HR & AN & SD & ->). destruct OK as (FT & OK). destruct WH as (HW & HK).
        inversion PL as [|? ? ? h1 ? ? HH PL']; subst. pose proof (LX _ _ eq_refl) as LX'. rewrite lenN_bits_of in LX'. pose proof (DX _ _ eq_refl) as DX'. rewrite lenN_bits_of in DX'.
        destruct (bit_steps q sg w (id n) s h h1 r m o L bf v P1 HW HK I WF LX' FT DX' HH HR AN) as (s1 & bf1 & S1 & I1 & PX & LD).
        eapply (NEXT (bits_of o w v) vs [_] h1 s1 bf1 tl (a + w)); eauto; rewrite ?lenN_bits_of; auto.
      + pose proof (LX _ _ eq_refl) as LX'. rewrite lenN_repeat_bits in LX'. pose proof (DX _ _ eq_refl) as DX'. rewrite lenN_repeat_bits in DX'.
        destruct (pad_steps q 0x23 w s h m o L bf P1 ltac:(auto) WH I WF LX') as (s1 & bf1 & S1 & I1 & PX & LD).
        { intros E i J. change (0x23 =? 0x23) with true in *. cbv iota in *. rewrite DX' by auto. now rewrite nth_repeat_bits by lia. }
        change (0x23 =? 0x23) with true in *. cbv iota in *.
        eapply (NEXT (repeat false (N.to_nat w)) vs [] h s1 bf1 t (a + w)); eauto; rewrite ?lenN_repeat_bits; auto.
      + pose proof (LX _ _ eq_refl) as LX'. rewrite lenN_repeat_bits in LX'. pose proof (DX _ _ eq_refl) as DX'. rewrite lenN_repeat_bits in DX'.
        pose proof (pad_steps q 0x24 (if b then 1 else 0) s h m o L bf P1 ltac:(auto)) as X. cbv zeta in X. change (0x24 =? 0x23) with false in X. cbv iota in X.
        rewrite B8 in X. replace (negb ((if b then 1 else 0) =? 0)) with b in X by (destruct b; reflexivity).
        set (w := (8 - a mod 8) mod 8) in *. destruct X as (s1 & bf1 & S1 & I1 & PX & LD); auto; [unfold w; lia| |].
        { intros E i J. rewrite DX' by auto. now rewrite nth_repeat_bits by lia. }
        eapply (NEXT (repeat b (N.to_nat w)) vs [] h s1 bf1 t (a + w)); eauto; rewrite ?lenN_repeat_bits; auto.
  Qed.
End Steps.
