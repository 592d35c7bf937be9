From Verif Require Import Base SpecBytes.

Ltac Zify.zify_post_hook ::= Z.div_mod_to_equations.

Lemma lenN_app {A} (a b : list A) : lenN (a ++ b) = lenN a + lenN b.
Proof. unfold lenN. rewrite app_length. lia. Qed.
Lemma lenN_cons {A} (x : A) l : lenN (x :: l) = lenN l + 1.
Proof. unfold lenN. cbn. lia. Qed.
Lemma lenN_nil {A} : lenN (@nil A) = 0.
Proof. reflexivity. Qed.
Lemma lenN_rev {A} (l : list A) : lenN (rev l) = lenN l.
Proof. unfold lenN. now rewrite rev_length. Qed.
Lemma lenN_firstn {A} n (l : list A) : n <= lenN l -> lenN (firstn (N.to_nat n) l) = n.
Proof. unfold lenN. intros. rewrite firstn_length. lia. Qed.
Lemma lenN_skipn {A} n (l : list A) : lenN (skipn (N.to_nat n) l) = lenN l - n.
Proof. unfold lenN. rewrite skipn_length. lia. Qed.

Lemma nth_firstn {A} (d : A) n l i : nth i (firstn n l) d = if Nat.ltb i n then nth i l d else d.
Proof.
  revert l i; induction n; intros l i; cbn.
  - destruct i; reflexivity.
  - destruct l; cbn. { destruct i; match goal with |- context [if ?b then _ else _] => destruct b end; reflexivity. }
    destruct i; cbn; [reflexivity|]. rewrite IHn. reflexivity.
Qed.
Lemma nth_skipn {A} (d : A) n l i : nth i (skipn n l) d = nth (n + i) l d.
Proof.
  revert l; induction n; intros l; cbn; [reflexivity|].
  destruct l; cbn; [destruct i; reflexivity | apply IHn].
Qed.

Lemma nthN_app a b i : nthN (a ++ b) i = if i <? lenN a then nthN a i else nthN b (i - lenN a).
Proof.
  unfold nthN, lenN. destruct (N.ltb_spec i (N.of_nat (length a))).
  - rewrite app_nth1 by lia. reflexivity.
  - rewrite app_nth2 by lia. f_equal. lia.
Qed.
Lemma nthN_out b i : lenN b <= i -> nthN b i = 0.
Proof. unfold nthN, lenN. intros. apply nth_overflow. lia. Qed.
Lemma nthN_firstn b n i : nthN (firstn (N.to_nat n) b) i = if i <? n then nthN b i else 0.
Proof.
  unfold nthN. rewrite nth_firstn.
  destruct (N.ltb_spec i n), (Nat.ltb_spec (N.to_nat i) (N.to_nat n)); auto; lia.
Qed.
Lemma nthN_skipn b n i : nthN (skipn (N.to_nat n) b) i = nthN b (n + i).
Proof. unfold nthN. rewrite nth_skipn. f_equal. lia. Qed.
Lemma nthN_cons x l i : nthN (x :: l) i = if i =? 0 then x else nthN l (i - 1).
Proof.
  unfold nthN. destruct (N.eqb_spec i 0).
  - subst. reflexivity.
  - replace (N.to_nat i) with (S (N.to_nat (i - 1))) by lia. reflexivity.
Qed.

Lemma nthN_ext (a b : list N) : lenN a = lenN b -> (forall i, i < lenN a -> nthN a i = nthN b i) -> a = b.
Proof.
  unfold lenN, nthN. intros HL HE. apply nth_ext with (d := 0) (d' := 0); [lia|].
  intros n Hn. specialize (HE (N.of_nat n)). rewrite Nat2N.id in HE. apply HE. lia.
Qed.

Lemma mem_eq u l i : mem u l i = if i <? lenN l then Ok (nthN l i) else Ub u.
Proof.
  unfold mem, nthN, lenN. destruct (N.ltb_spec i (N.of_nat (length l))); auto.
  rewrite (nth_error_nth' l 0) by lia. reflexivity.
Qed.

Lemma upd_length {A} (l : list A) n v : length (upd l n v) = length l.
Proof. revert n; induction l; intros [|n]; cbn; auto. Qed.
Lemma upd_nth {A} (d : A) l n v i :
  nth i (upd l n v) d = if (Nat.eqb i n && Nat.ltb n (length l))%bool then v else nth i l d.
Proof.
  revert n i; induction l; intros [|n] [|i]; cbn; auto.
  - rewrite andb_false_r. destruct i; auto.
  - rewrite IHl. reflexivity.
Qed.

Lemma lenN_put b p d : p + lenN d <= lenN b -> lenN (put b p d) = lenN b.
Proof.
  intros. unfold put, lenN in *. rewrite !app_length, firstn_length, skipn_length. lia.
Qed.
Lemma nthN_put b p d i : p + lenN d <= lenN b ->
  nthN (put b p d) i = if (p <=? i) && (i <? p + lenN d) then nthN d (i - p) else nthN b i.
Proof.
  intros HL. unfold put. rewrite nthN_app, nthN_app.
  rewrite lenN_firstn by lia.
  replace (N.to_nat p + length d)%nat with (N.to_nat (p + lenN d)) by (unfold lenN; lia).
  rewrite nthN_skipn, nthN_firstn.
  destruct (N.ltb_spec i p), (N.leb_spec p i), (N.ltb_spec i (p + lenN d)),
    (N.ltb_spec (i - p) (lenN d)); cbn; try lia; auto. f_equal. lia.
Qed.
Lemma lenN_sub b p n : p + n <= lenN b -> lenN (sub b p n) = n.
Proof. intros. unfold sub. rewrite lenN_firstn; auto. rewrite lenN_skipn. lia. Qed.
Lemma nthN_sub b p n i : i < n -> nthN (sub b p n) i = nthN b (p + i).
Proof.
  intros. unfold sub. rewrite nthN_firstn, nthN_skipn.
  destruct (N.ltb_spec i n); auto; lia.
Qed.
Lemma sub_put_same b p d : p + lenN d <= lenN b -> sub (put b p d) p (lenN d) = d.
Proof.
  intros. assert (L := lenN_put b p d H).
  apply nthN_ext. { apply lenN_sub. lia. }
  rewrite lenN_sub by lia. intros i Hi. rewrite nthN_sub, nthN_put by lia.
  destruct (N.leb_spec p (p + i)), (N.ltb_spec (p + i) (p + lenN d)); cbn; try lia. f_equal. lia.
Qed.
Lemma sub_ext a b p n : p + n <= lenN a -> p + n <= lenN b ->
  (forall i, p <= i < p + n -> nthN a i = nthN b i) -> sub a p n = sub b p n.
Proof.
  intros. apply nthN_ext; rewrite ?lenN_sub by lia; auto.
  intros. rewrite !nthN_sub by lia. apply H1. lia.
Qed.

Lemma slice_eq u l p n : slice u l p n = if p + n <=? lenN l then Ok (sub l p n) else Ub u.
Proof. reflexivity. Qed.
Lemma splice_eq l p d : splice l p d = if p + lenN d <=? lenN l then Ok (put l p d) else Ub UData.
Proof. reflexivity. Qed.
Lemma sto_eq l i v : sto l i v = if i <? lenN l then Ok (put l i [v]) else Ub UData.
Proof.
  unfold sto. destruct (N.ltb_spec i (lenN l)); auto. f_equal.
  assert (lenN [v] = 1) by reflexivity.
  apply nthN_ext. { rewrite lenN_put by lia. unfold lenN. now rewrite upd_length. }
  intros j Hj. rewrite nthN_put by lia. unfold nthN at 1. rewrite upd_nth.
  rewrite H0. unfold lenN in *.
  destruct (Nat.eqb_spec (N.to_nat j) (N.to_nat i)); cbn [andb].
  - assert (j = i) by lia. subst j.
    destruct (Nat.ltb_spec (N.to_nat i) (length l)), (N.leb_spec i i), (N.ltb_spec i (i + 1)); cbn; try lia.
    rewrite N.sub_diag. reflexivity.
  - destruct (N.leb_spec i j), (N.ltb_spec j (i + 1)); cbn; try lia; reflexivity.
Qed.

Lemma wf_nthN b i : wf_bytes b -> nthN b i < 256.
Proof.
  intros W. unfold nthN. destruct (Nat.ltb_spec (N.to_nat i) (length b)).
  - unfold wf_bytes in W. rewrite Forall_forall in W. apply W. now apply nth_In.
  - rewrite nth_overflow by lia. lia.
Qed.
Lemma wf_of_nthN b : (forall i, i < lenN b -> nthN b i < 256) -> wf_bytes b.
Proof.
  intros. apply Forall_forall. intros x Hx. apply In_nth with (d := 0) in Hx.
  destruct Hx as (n & Hn & <-). specialize (H (N.of_nat n)). unfold nthN, lenN in H.
  rewrite Nat2N.id in H. apply H. lia.
Qed.
Lemma wf_put b p d : wf_bytes b -> wf_bytes d -> p + lenN d <= lenN b -> wf_bytes (put b p d).
Proof.
  intros. apply wf_of_nthN. intros. rewrite nthN_put by auto.
  destruct (_ && _); apply wf_nthN; auto.
Qed.
Lemma wf_sub b p n : wf_bytes b -> wf_bytes (sub b p n).
Proof.
  intros. unfold sub, wf_bytes in *. rewrite Forall_forall in *. intros x Hx. apply H.
  rewrite <- (firstn_skipn (N.to_nat p) b). apply in_or_app. right.
  rewrite <- (firstn_skipn (N.to_nat n) (skipn _ _)). apply in_or_app. now left.
Qed.
Lemma wf_app a b : wf_bytes a -> wf_bytes b -> wf_bytes (a ++ b).
Proof. apply Forall_app_2 || (intros; apply Forall_app; auto). Qed.

(** put composed with put of the next bytes *)
Lemma put_put b p d1 d2 : p + lenN d1 + lenN d2 <= lenN b ->
  put (put b p d1) (p + lenN d1) d2 = put b p (d1 ++ d2).
Proof.
  intros. pose proof (lenN_app d1 d2). pose proof (lenN_put b p d1 ltac:(lia)).
  apply nthN_ext. { rewrite !lenN_put; lia. }
  intros i Hi. rewrite !nthN_put, nthN_app by lia.
  destruct (N.leb_spec (p + lenN d1) i), (N.ltb_spec i (p + lenN d1 + lenN d2)),
   (N.leb_spec p i), (N.ltb_spec i (p + lenN d1)), (N.ltb_spec i (p + lenN (d1 ++ d2))),
   (N.ltb_spec (i - p) (lenN d1)); cbn; try lia; auto. f_equal. lia.
Qed.

(** ** Positional notation *)
Lemma le_bytes_length n v : length (le_bytes n v) = n.
Proof. revert v; induction n; cbn; auto. Qed.
Lemma bytes_of_length e n v : length (bytes_of e n v) = n.
Proof. destruct e; cbn; rewrite ?rev_length; apply le_bytes_length. Qed.
Lemma lenN_bytes_of e n v : lenN (bytes_of e n v) = N.of_nat n.
Proof. unfold lenN. now rewrite bytes_of_length. Qed.
Lemma wf_le_bytes n v : wf_bytes (le_bytes n v).
Proof. revert v; induction n; cbn; constructor; auto; [lia | apply IHn]. Qed.
Lemma wf_rev b : wf_bytes b -> wf_bytes (rev b).
Proof. unfold wf_bytes. rewrite !Forall_forall. intros H x Hx. apply H. now apply in_rev. Qed.
Lemma wf_bytes_of e n v : wf_bytes (bytes_of e n v).
Proof. destruct e; cbn; auto using wf_rev, wf_le_bytes. Qed.

Lemma pow256_S n : 256 ^ N.of_nat (S n) = 256 * 256 ^ N.of_nat n.
Proof. rewrite Nat2N.inj_succ, N.pow_succ_r'. reflexivity. Qed.
Lemma le_val_bound l : wf_bytes l -> le_val l < 256 ^ lenN l.
Proof.
  unfold lenN. induction 1; cbn [le_val length].
  - cbn. lia.
  - rewrite pow256_S. nia.
Qed.
Lemma val_of_bound e l : wf_bytes l -> val_of e l < 256 ^ lenN l.
Proof.
  intros. destruct e; cbn; [now apply le_val_bound|].
  rewrite <- lenN_rev. apply le_val_bound. now apply wf_rev.
Qed.
Lemma le_val_le_bytes n v : le_val (le_bytes n v) = v mod 256 ^ N.of_nat n.
Proof.
  revert v; induction n; intros v; cbn [le_val le_bytes].
  - cbn. now rewrite N.mod_1_r.
  - rewrite IHn, pow256_S, N.mod_mul_r by (try apply N.pow_nonzero; lia). reflexivity.
Qed.
Lemma le_bytes_le_val l : wf_bytes l -> le_bytes (length l) (le_val l) = l.
Proof.
  induction 1 as [|b l Hb Hl IH]; cbn [le_val le_bytes length]; auto.
  replace ((b + 256 * le_val l) mod 256) with b by lia.
  replace ((b + 256 * le_val l) / 256) with (le_val l) by lia. now rewrite IH.
Qed.
Lemma val_bytes e n v : val_of e (bytes_of e n v) = v mod 256 ^ N.of_nat n.
Proof. destruct e; cbn; rewrite ?rev_involutive; apply le_val_le_bytes. Qed.
Lemma bytes_val e l : wf_bytes l -> bytes_of e (length l) (val_of e l) = l.
Proof.
  intros W. destruct e; cbn.
  - now apply le_bytes_le_val.
  - rewrite <- rev_length, le_bytes_le_val by now apply wf_rev. apply rev_involutive.
Qed.
Lemma le_bytes_mod n v : le_bytes n (v mod 256 ^ N.of_nat n) = le_bytes n v.
Proof.
  rewrite <- le_val_le_bytes. rewrite <- (le_bytes_length n v) at 1.
  apply le_bytes_le_val, wf_le_bytes.
Qed.
Lemma bytes_of_mod e n v : bytes_of e n (v mod 256 ^ N.of_nat n) = bytes_of e n v.
Proof. destruct e; cbn; now rewrite le_bytes_mod. Qed.
