From Verif Require Import Base SpecBytes LemBase ModelWord.
Ltac Zify.zify_post_hook ::= Z.div_mod_to_equations.

Lemma lor_disjoint x y k : x mod 2 ^ k = 0 -> y < 2 ^ k -> N.lor x y = x + y.
Proof.
  intros Hx Hy. assert (N.land x y = 0).
  { apply N.bits_inj. intros i. rewrite N.land_spec, N.bits_0.
    destruct (N.ltb_spec i k).
    - replace (N.testbit x i) with (N.testbit (x mod 2 ^ k) i) by (now apply N.mod_pow2_bits_low).
      now rewrite Hx, N.bits_0.
    - rewrite andb_comm. destruct (N.eq_dec y 0). { subst; now rewrite N.bits_0. }
      rewrite N.bits_above_log2; auto.
      apply N.log2_lt_pow2 in Hy; lia. }
  rewrite N.add_nocarry_lxor by auto. symmetry. now apply N.lxor_lor.
Qed.
Lemma lor_disjoint' x y k : y mod 2 ^ k = 0 -> x < 2 ^ k -> N.lor x y = x + y.
Proof. intros. rewrite N.lor_comm, (lor_disjoint y x k) by auto. lia. Qed.

Lemma byte_at_eq v k : byte_at v k = (v / 2 ^ k) mod 256.
Proof.
  unfold byte_at. rewrite N.shiftr_div_pow2. change 255 with (N.ones 8).
  rewrite N.land_ones. reflexivity.
Qed.

Definition nbytes (w : width) : nat := match w with W1 => 1 | W2 => 2 | W4 => 4 | W8 => 8 end%nat.
Lemma wbytes_nat w : wbytes w = N.of_nat (nbytes w).
Proof. now destruct w. Qed.
Lemma wbytes_pos w : 1 <= wbytes w <= 8.
Proof. destruct w; cbn; lia. Qed.
Lemma wbytes_pow w : 2 ^ (8 * wbytes w) = 256 ^ wbytes w.
Proof. now destruct w. Qed.

Lemma skipn_cons (l : list N) p : p < lenN l ->
  skipn (N.to_nat p) l = nthN l p :: skipn (N.to_nat (p + 1)) l.
Proof.
  intros. unfold nthN, lenN in *. replace (N.to_nat (p + 1)) with (S (N.to_nat p)) by lia.
  assert (G : (N.to_nat p < length l)%nat) by lia. clear H.
  revert G. generalize (N.to_nat p) as n. revert l.
  induction l; intros n G; cbn in G; [lia|]. destruct n; cbn; auto. apply IHl. lia.
Qed.
Lemma sub_cons l p n : p < lenN l -> sub l p (n + 1) = nthN l p :: sub l (p + 1) n.
Proof.
  intros. unfold sub. rewrite (skipn_cons l p) by auto.
  replace (N.to_nat (n + 1)) with (S (N.to_nat n)) by lia. reflexivity.
Qed.
Lemma sub_0 l p : sub l p 0 = [].
Proof. reflexivity. Qed.

Ltac get1 l p := rewrite (mem_eq UData l p);
  let E := fresh "E" in destruct (N.ltb_spec p (lenN l)) as [E|E]; cbn [bindR].

Lemma le_val_cons b r : le_val (b :: r) = b + 256 * le_val r.
Proof. reflexivity. Qed.

Ltac bound_all W l :=
  repeat match goal with |- context [nthN l ?i] =>
    lazymatch goal with
    | H : nthN l i < 256 |- _ => fail
    | _ => idtac
    end;
    let H := fresh "B" in pose proof (wf_nthN l i W) as H; revert H;
    generalize (nthN l i); intros ? H
  end.

Ltac lors :=
  repeat match goal with
  | |- context [N.lor ?x ?y] =>
    lazymatch x with context [N.lor _ _] => fail | _ => idtac end;
    first
    [ rewrite (lor_disjoint' x y 8) by lia | rewrite (lor_disjoint' x y 16) by lia
    | rewrite (lor_disjoint' x y 24) by lia | rewrite (lor_disjoint' x y 32) by lia
    | rewrite (lor_disjoint' x y 40) by lia | rewrite (lor_disjoint' x y 48) by lia
    | rewrite (lor_disjoint' x y 56) by lia
    | rewrite (lor_disjoint x y 8) by lia | rewrite (lor_disjoint x y 16) by lia
    | rewrite (lor_disjoint x y 24) by lia | rewrite (lor_disjoint x y 32) by lia
    | rewrite (lor_disjoint x y 40) by lia | rewrite (lor_disjoint x y 48) by lia
    | rewrite (lor_disjoint x y 56) by lia ]
  end.

Section Combine.
  Variables b0 b1 b2 b3 b4 b5 b6 b7 : N.
  Hypotheses (H0 : b0 < 256) (H1 : b1 < 256) (H2 : b2 < 256) (H3 : b3 < 256)
             (H4 : b4 < 256) (H5 : b5 < 256) (H6 : b6 < 256) (H7 : b7 < 256).
  Lemma comb16le : N.lor b0 (N.shiftl b1 8) = le_val [b0; b1].
  Proof using H0 H1. clear H2 H3 H4 H5 H6 H7. rewrite !N.shiftl_mul_pow2. cbn [le_val]. lors. lia. Qed.
  Lemma comb16be : N.lor (N.shiftl b0 8) b1 = le_val [b1; b0].
  Proof using H0 H1. clear H2 H3 H4 H5 H6 H7. rewrite !N.shiftl_mul_pow2. cbn [le_val]. lors. lia. Qed.
  Lemma comb32le : N.lor (N.lor (N.lor b0 (N.shiftl b1 8)) (N.shiftl b2 16)) (N.shiftl b3 24)
                   = le_val [b0; b1; b2; b3].
  Proof using H0 H1 H2 H3. clear H4 H5 H6 H7. rewrite !N.shiftl_mul_pow2. cbn [le_val]. lors. lia. Qed.
  Lemma comb32be : N.lor (N.lor (N.lor (N.shiftl b0 24) (N.shiftl b1 16)) (N.shiftl b2 8)) b3
                   = le_val [b3; b2; b1; b0].
  Proof using H0 H1 H2 H3. clear H4 H5 H6 H7. rewrite !N.shiftl_mul_pow2. cbn [le_val]. lors. lia. Qed.
  Lemma comb64le : N.lor (N.lor (N.lor (N.lor (N.lor (N.lor (N.lor b0 (N.shiftl b1 8))
                (N.shiftl b2 16)) (N.shiftl b3 24)) (N.shiftl b4 32)) (N.shiftl b5 40))
                (N.shiftl b6 48)) (N.shiftl b7 56)
                   = le_val [b0; b1; b2; b3; b4; b5; b6; b7].
  Proof using H0 H1 H2 H3 H4 H5 H6 H7. rewrite !N.shiftl_mul_pow2. cbn [le_val]. lors. lia. Qed.
  Lemma comb64be : N.lor (N.lor (N.lor (N.lor (N.lor (N.lor (N.lor (N.shiftl b0 56) (N.shiftl b1 48))
                (N.shiftl b2 40)) (N.shiftl b3 32)) (N.shiftl b4 24)) (N.shiftl b5 16))
                (N.shiftl b6 8)) b7
                   = le_val [b7; b6; b5; b4; b3; b2; b1; b0].
  Proof using H0 H1 H2 H3 H4 H5 H6 H7. rewrite !N.shiftl_mul_pow2. cbn [le_val]. lors. lia. Qed.
End Combine.

Lemma sub2 l p : p + 2 <= lenN l -> sub l p 2 = [nthN l p; nthN l (p + 1)].
Proof.
  intros. change 2 with (0 + 1 + 1). rewrite !sub_cons, sub_0 by lia. reflexivity.
Qed.
Lemma sub4 l p : p + 4 <= lenN l ->
  sub l p 4 = [nthN l p; nthN l (p + 1); nthN l (p + 2); nthN l (p + 3)].
Proof.
  intros. change 4 with (2 + 1 + 1). rewrite !sub_cons, sub2 by lia.
  rewrite <- !N.add_assoc. reflexivity.
Qed.
Lemma sub8 l p : p + 8 <= lenN l ->
  sub l p 8 = [nthN l p; nthN l (p + 1); nthN l (p + 2); nthN l (p + 3);
               nthN l (p + 4); nthN l (p + 5); nthN l (p + 6); nthN l (p + 7)].
Proof.
  intros. change 8 with (4 + 1 + 1 + 1 + 1). rewrite !sub_cons, sub4 by lia.
  rewrite <- !N.add_assoc. reflexivity.
Qed.

(** Reading a word is reading the positional value of its bytes. *)
Lemma read_word_eq w e b p : wf_bytes b ->
  read_word w e b p =
  if p + wbytes w <=? lenN b then Ok (val_of e (sub b p (wbytes w))) else Ub UData.
Proof.
  intros W.
  assert (B : forall i, nthN b i < 256) by (intros; now apply wf_nthN).
  destruct w; cbn [wbytes read_word]; match goal with |- context [?x <=? lenN b] => destruct (N.leb_spec x (lenN b)) as [E|E] end;
    unfold read_u8, read_u16, read_u32, read_u64.
  - get1 b p; [|lia]. change 1 with (0 + 1). rewrite sub_cons, sub_0 by lia.
    destruct e; cbn; f_equal; lia.
  - get1 b p; auto; lia.
  - get1 b p; [|lia]. get1 b (p + 1); [|lia]. rewrite sub2 by lia.
    destruct e; cbn [val_of rev app]; f_equal; [apply comb16le|apply comb16be]; auto.
  - get1 b p; auto. get1 b (p + 1); auto; lia.
  - get1 b p; [|lia]. get1 b (p + 1); [|lia]. get1 b (p + 2); [|lia]. get1 b (p + 3); [|lia].
    rewrite sub4 by lia.
    destruct e; cbn [val_of rev app]; f_equal; [apply comb32le|apply comb32be]; auto.
  - get1 b p; auto. get1 b (p + 1); auto. get1 b (p + 2); auto. get1 b (p + 3); auto. lia.
  - get1 b p; [|lia]. get1 b (p + 1); [|lia]. get1 b (p + 2); [|lia]. get1 b (p + 3); [|lia].
    get1 b (p + 4); [|lia]. get1 b (p + 5); [|lia]. get1 b (p + 6); [|lia]. get1 b (p + 7); [|lia].
    rewrite sub8 by lia.
    destruct e; cbn [val_of rev app]; f_equal; [apply comb64le|apply comb64be]; auto.
  - get1 b p; auto. get1 b (p + 1); auto. get1 b (p + 2); auto. get1 b (p + 3); auto.
    get1 b (p + 4); auto. get1 b (p + 5); auto. get1 b (p + 6); auto. get1 b (p + 7); auto. lia.
Qed.

Lemma sto_step b p d x (k : list N -> result (list N)) : p + lenN d <= lenN b ->
  bindR (sto (put b p d) (p + lenN d) x) k =
  if p + lenN d + 1 <=? lenN b then k (put b p (d ++ [x])) else Ub UData.
Proof.
  intros. rewrite sto_eq, lenN_put by auto. pose proof (lenN_nil (A:=N)).
  pose proof (lenN_cons x []).
  destruct (N.ltb_spec (p + lenN d) (lenN b)), (N.leb_spec (p + lenN d + 1) (lenN b)); cbn; try lia; auto.
  rewrite put_put by lia. reflexivity.
Qed.
Lemma put_nil b p : p <= lenN b -> put b p [] = b.
Proof.
  intros. assert (lenN (@nil N) = 0) by reflexivity. apply nthN_ext; rewrite ?lenN_put by lia; auto.
  intros. rewrite nthN_put by lia.
  destruct (N.leb_spec p i), (N.ltb_spec i (p + lenN (@nil N))); cbn; auto; lia.
Qed.

Fixpoint stos (b : list N) (p : N) (l : list N) : result (list N) :=
  match l with
  | [] => Ok b
  | x :: r => let! b := sto b p x in stos b (p + 1) r
  end.
Lemma stos_eq b p l : p <= lenN b ->
  stos b p l = if p + lenN l <=? lenN b then Ok (put b p l) else Ub UData.
Proof.
  revert b p; induction l; intros b p Hp; cbn [stos].
  - rewrite lenN_nil, put_nil by auto. destruct (N.leb_spec (p + 0) (lenN b)); auto; lia.
  - rewrite sto_eq, lenN_cons. destruct (N.ltb_spec p (lenN b)); cbn [bindR].
    + pose proof (lenN_put b p [a] ltac:(cbn; lia)).
      rewrite IHl by lia. rewrite H0.
      destruct (N.leb_spec (p + 1 + lenN l) (lenN b)), (N.leb_spec (p + (lenN l + 1)) (lenN b)); try lia; auto.
      f_equal. change 1 with (lenN [a]) at 1. rewrite put_put by (cbn; lia). reflexivity.
    + destruct (N.leb_spec (p + (lenN l + 1)) (lenN b)); auto; lia.
Qed.

Lemma stos_ub b p l : lenN b < p -> l <> [] -> stos b p l = Ub UData.
Proof.
  intros. destruct l; [congruence|]. cbn. rewrite sto_eq.
  destruct (N.ltb_spec p (lenN b)); auto; lia.
Qed.

Lemma bindR_ret {A} (r : result A) : bindR r (fun x => Ok x) = r.
Proof. now destruct r. Qed.

Lemma write_word_stos w e b p v :
  write_word w e b p v = stos b p (bytes_of e (nbytes w) v).
Proof.
  assert (T2 : forall k, k = 0 \/ k = 8 -> byte_at (trunc 2 v) k = byte_at v k).
  { intros k Hk. rewrite !byte_at_eq. unfold trunc. destruct Hk; subst k; lia. }
  assert (T4 : forall k, In k [0; 8; 16; 24] -> byte_at (trunc 4 v) k = byte_at v k).
  { intros k Hk. rewrite !byte_at_eq. unfold trunc. cbn [In] in Hk.
    repeat destruct Hk as [Hk|Hk]; try subst k; try easy; lia. }
  assert (T8 : forall k, In k [0; 8; 16; 24; 32; 40; 48; 56] -> byte_at (trunc 8 v) k = byte_at v k).
  { intros k Hk. rewrite !byte_at_eq. unfold trunc. cbn [In] in Hk.
    repeat destruct Hk as [Hk|Hk]; try subst k; try easy; lia. }
  assert (D8 : le_bytes 8 v = [byte_at v 0; byte_at v 8; byte_at v 16; byte_at v 24;
                          byte_at v 32; byte_at v 40; byte_at v 48; byte_at v 56]).
  { rewrite !byte_at_eq. cbn [le_bytes]. rewrite !N.div_div by lia.
    repeat f_equal; rewrite ?N.div_1_r; reflexivity. }
  assert (D4 : le_bytes 4 v = [byte_at v 0; byte_at v 8; byte_at v 16; byte_at v 24])
    by (cbn [le_bytes] in *; congruence).
  assert (D2 : le_bytes 2 v = [byte_at v 0; byte_at v 8]) by (cbn [le_bytes] in *; congruence).
  assert (D1 : le_bytes 1 v = [trunc 1 v]) by (cbn [le_bytes] in *; reflexivity).
  destruct w; cbn [write_word nbytes]; unfold write_u8, write_u16, write_u32, write_u64.
  - destruct e; cbn [bytes_of]; rewrite D1; cbn [rev app stos]; now rewrite bindR_ret.
  - rewrite !T2 by auto. destruct e; cbn [bytes_of]; rewrite D2; cbn [rev app stos];
      destruct (sto _ _ _); cbn [bindR]; auto; now rewrite bindR_ret.
  - rewrite !T4 by (cbn; tauto).
    destruct e; cbn [bytes_of]; rewrite D4; cbn [rev app stos];
      repeat (destruct (sto _ _ _); cbn [bindR]; auto; rewrite <- ?N.add_assoc).
  - rewrite !T8 by (cbn; tauto).
    destruct e; cbn [bytes_of]; rewrite D8; cbn [rev app stos];
      rewrite <- !N.add_assoc; cbn [N.add Pos.add Pos.succ];
      repeat (destruct (sto _ _ _); cbn [bindR]; auto).
Qed.

Lemma write_word_eq w e b p v :
  write_word w e b p v =
  if p + wbytes w <=? lenN b then Ok (put b p (bytes_of e (nbytes w) v)) else Ub UData.
Proof.
  rewrite write_word_stos. destruct (N.leb_spec p (lenN b)).
  - rewrite stos_eq by auto. now rewrite lenN_bytes_of, <- wbytes_nat.
  - rewrite stos_ub; auto.
    + destruct (N.leb_spec (p + wbytes w) (lenN b)); auto; lia.
    + intros E. apply (f_equal (@length N)) in E. rewrite bytes_of_length in E. now destruct w.
Qed.
