(** Lemmas for C78 *)
From Coq Require Import Strings.String.
From Verif Require Import Base LemBase ModelText ModelLsp LemLsp ModelBindings SpecBindings.
Local Open Scope string_scope.
Local Open Scope list_scope.
Local Open Scope N_scope.

(** ** Literals *)
Lemma digits_in_snoc b l c : forall acc, Forall (fun c => digit_of c < b) l -> digits_in b (l ++ [c]) acc =
  if digit_of c <? b then (digits_in b l acc * Z.of_N b + Z.of_N (digit_of c))%Z else digits_in b l acc.
Proof.
  induction l as [| d l IH]; intros acc F; cbn [digits_in app]; [destruct (digit_of c <? b); reflexivity |].
  inversion F as [| ? ? D F']; subst. apply N.ltb_lt in D. rewrite D. apply IH, F'.
Qed.
Lemma digit_dec c : dec_digit c -> digit_of c = c - 48.
Proof. unfold dec_digit, digit_of. intros H. replace ((48 <=? c) && (c <=? 57)) with true by lia. reflexivity. Qed.
Lemma digit_hex c v : hex_digit c v -> digit_of c = v /\ v < 16.
Proof.
  unfold hex_digit, digit_of, lower. intros [[H E] | [[H E] | [H E]]].
  - replace ((48 <=? c) && (c <=? 57)) with true by lia. lia.
  - replace ((48 <=? c) && (c <=? 57)) with false by lia. replace ((65 <=? c) && (c <=? 90)) with true by lia.
    replace ((97 <=? c + 32) && (c + 32 <=? 122)) with true by lia. lia.
  - replace ((48 <=? c) && (c <=? 57)) with false by lia. replace ((65 <=? c) && (c <=? 90)) with false by lia.
    replace ((97 <=? c) && (c <=? 122)) with true by lia. lia.
Qed.
Lemma dec_digits l z : dec_value l z -> Forall dec_digit l /\ digits_in 10 l 0 = z.
Proof.
  induction 1 as [| l z c D [F E] C]; [auto |]. split; [apply Forall_app; auto |].
  rewrite digits_in_snoc.
  - rewrite (digit_dec _ C), E. unfold dec_digit in C. replace (c - 48 <? 10) with true by lia. lia.
  - eapply Forall_impl; [| exact F]. cbv beta. intros a A. rewrite (digit_dec _ A). unfold dec_digit in A. lia.
Qed.
Lemma hex_digits l z : hex_value l z -> Forall (fun c => exists v, hex_digit c v) l /\ digits_in 16 l 0 = z.
Proof.
  induction 1 as [| l z c v D [F E] C]; [auto |]. split; [apply Forall_app; split; [exact F | eauto] |].
  destruct (digit_hex _ _ C) as [E1 L]. rewrite digits_in_snoc.
  - rewrite E1, E. replace (v <? 16) with true by lia. lia.
  - eapply Forall_impl; [| exact F]. cbv beta. intros a [w A]. destruct (digit_hex _ _ A); lia.
Qed.
Definition value_ok (c : N) : Prop := value_char c = true /\ ascii c = true /\ white c = false /\ c <> 47 /\ c <> 0 /\ c <> 61 /\ c <> 10.
Lemma value_range c : 48 <= c <= 57 \/ 65 <= c <= 90 \/ 97 <= c <= 122 \/ c = 45 -> value_ok c.
Proof. unfold value_ok, value_char, letter_or_digit, ascii, white. intros H. repeat split; lia. Qed.
Lemma dec_ok l : Forall dec_digit l -> Forall value_ok l.
Proof. apply Forall_impl. unfold dec_digit. intros a A. apply value_range. lia. Qed.
Lemma hex_ok l : Forall (fun c => exists v, hex_digit c v) l -> Forall value_ok l.
Proof. apply Forall_impl. unfold hex_digit. intros a [v A]. apply value_range. lia. Qed.
Lemma literal_ok l z : literal l z -> Forall value_ok l /\ exists c r, l = c :: r.
Proof.
  intros [| c r z' C D | c r z' C D | c r z' D]; (split; [| eauto]).
  - constructor; [apply value_range; lia | constructor].
  - apply dec_ok, (dec_digits _ _ D).
  - constructor; [apply value_range; lia |]. apply dec_ok, (dec_digits _ _ D).
  - apply Forall_app. split; [| apply hex_ok, (hex_digits _ _ D)]. vm_compute chars. repeat constructor; apply value_range; lia.
  - cbn. eauto.
Qed.
Lemma unsigned_dec c l z : c <> 48 -> dec_value (c :: l) z -> unsigned_in (c :: l) = z.
Proof.
  intros C D. apply dec_digits in D. destruct D as [F E]. rewrite <- E. unfold unsigned_in.
  destruct c as [| p]; [reflexivity |]. repeat (destruct p as [p | p |]; try reflexivity). now contradiction C.
Qed.
Lemma literal_strtol l z : literal l z -> (- 2 ^ 31 <= z < 2 ^ 31)%Z -> strtol l = z.
Proof.
  intros H R. unfold strtol.
  assert (M : forall x, x = z -> Z.max (- 2 ^ 63) (Z.min (2 ^ 63 - 1) x) = z) by (intros x ->; lia).
  apply M. destruct H as [| c r z C D | c r z C D | c r z D].
  - reflexivity.
  - rewrite <- (unsigned_dec _ _ _ C D).
    assert (A : Forall value_ok (c :: r)) by apply dec_ok, (dec_digits _ _ D).
    assert (c <> 45). { destruct (dec_digits _ _ D) as [F _]. inversion F; unfold dec_digit in *; lia. }
    destruct c as [| p]; [reflexivity |]. repeat (destruct p as [p | p |]; try reflexivity). congruence.
  - now rewrite (unsigned_dec _ _ _ C D).
  - destruct (hex_digits _ _ D) as [F E]. change (chars "0x") with [48; 120]. cbn [app]. unfold unsigned_in.
    inversion F as [| ? ? [v V] _]; subst. destruct (digit_hex _ _ V) as [E1 L]. rewrite E1.
    replace (v <? 16) with true by lia. reflexivity.
Qed.

(** The decimal numbers that sprintf writes *)
Lemma digits_dec f : forall n, n < 2 ^ N.of_nat (Datatypes.S f) ->
  dec_value (digits_of (Datatypes.S f) n) (Z.of_N n) /\ exists c r, digits_of (Datatypes.S f) n = c :: r /\ (n <> 0 -> c <> 48).
Proof.
  assert (one : forall n, n < 10 -> dec_value [48 + n] (Z.of_N n) /\ exists c r, [48 + n] = c :: r /\ (n <> 0 -> c <> 48)).
  { intros n L. split; [| exists (48 + n), []; split; [reflexivity | lia]].
    replace (Z.of_N n) with (10 * 0 + (Z.of_N (48 + n) - 48))%Z by lia.
    apply (dec_snoc []); [constructor | unfold dec_digit; lia]. }
  induction f as [| f IH]; intros n L.
  - change (2 ^ N.of_nat 1) with 2 in L. cbn [digits_of]. replace (n <? 10) with true by lia. apply one. lia.
  - remember (Datatypes.S f) as f1. cbn [digits_of]. destruct (N.ltb_spec n 10); [apply one; assumption |].
    rewrite Nat2N.inj_succ, N.pow_succ_r' in L. subst f1. destruct (IH (n / 10)) as [D (c & r & E & C)]; [lia |]. split.
    + replace (Z.of_N n) with (10 * Z.of_N (n / 10) + (Z.of_N (48 + n mod 10) - 48))%Z by lia. constructor; [exact D | unfold dec_digit; lia].
    + rewrite E. exists c, (r ++ [48 + n mod 10]). split; [reflexivity |]. intros _. apply C. lia.
Qed.
Lemma decimal_literal z : literal (decimal_z z) z.
Proof.
  unfold decimal_z, decimal. destruct (Z.ltb_spec z 0).
  - destruct (digits_dec _ _ (size_bound (Z.to_N (- z)))) as [D (c & r & E & C)]. rewrite E in *.
    pose proof (lit_neg _ _ _ (C ltac:(lia)) D) as H1. now replace (- Z.of_N (Z.to_N (- z)))%Z with z in H1 by lia.
  - destruct (Z.eq_dec z 0) as [-> |]; [apply lit_zero |].
    destruct (digits_dec _ _ (size_bound (Z.to_N z))) as [D (c & r & E & C)]. rewrite E in *.
    pose proof (lit_dec _ _ _ (C ltac:(lia)) D) as H1. now replace (Z.of_N (Z.to_N z)) with z in H1 by lia.
Qed.

(** ** Names *)
Lemma split_words l : forall acc, ~ In 95 acc -> words (acc ++ l) (split_at acc l).
Proof.
  induction l as [| c l IH]; intros acc N; cbn [split_at]; [rewrite app_nil_r; constructor; exact N |].
  destruct (N.eqb_spec c 95) as [-> | C].
  - constructor; [exact N |]. apply (IH []). intros [].
  - replace (acc ++ c :: l) with ((acc ++ [c]) ++ l) by (rewrite <- app_assoc; reflexivity). apply IH. rewrite in_app_iff. cbn. intuition.
Qed.
Lemma keeps_title w : keeps w = true -> title w = w.
Proof.
  unfold keeps, title. rewrite existsb_exists. intros (k & K & E). destruct (list_eq_dec N.eq_dec w (chars k)) as [-> |]; [| discriminate].
  destruct (in_dec _ _ _) as [| N]; [reflexivity |]. contradiction N. apply in_map, K.
Qed.
Lemma not_keeps w : keeps w = false -> title w = match w with [] => [] | c :: r => big c :: map SpecBindings.small r end.
Proof.
  unfold keeps, title. intros K. destruct (in_dec _ _ _) as [I |]; [| reflexivity]. exfalso. apply in_map_iff in I. destruct I as (k & E & I).
  assert (H : existsb (fun k => if list_eq_dec N.eq_dec w (chars k) then true else false) keep_upper = true).
  { apply existsb_exists. exists k. split; [exact I |]. destruct (list_eq_dec N.eq_dec w (chars k)); [reflexivity | congruence]. }
  congruence.
Qed.
Lemma piece_title w : Forall (fun c => ascii c = true) w -> piece_name w = Done (title w) /\ lenN (title w) <= lenN w.
Proof.
  intros F. unfold piece_name. destruct (keeps w) eqn:K.
  - rewrite (keeps_title _ K). destruct w; split; try reflexivity; lia.
  - rewrite (not_keeps _ K). destruct w as [| c r]; [split; [reflexivity | lia] |].
    replace (forallb ascii (c :: r)) with true by (symmetry; apply forallb_forall; rewrite Forall_forall in F; exact F).
    split; [reflexivity |]. rewrite !lenN_cons. unfold lenN. rewrite map_length. lia.
Qed.
Lemma pieces_words n ws : words n ws -> Forall (fun c => ascii c = true) n -> pieces_name ws = Done (flat_map title ws) /\ lenN (flat_map title ws) <= lenN n.
Proof.
  induction 1 as [w N | w n ws N W IH]; intros F.
  - destruct (piece_title w F) as [E L]. cbn [pieces_name flat_map]. rewrite E. split; [reflexivity |]. rewrite lenN_app. cbn. unfold lenN in *. cbn. lia.
  - apply Forall_app in F. destruct F as [F1 F2]. inversion F2 as [| ? ? _ F3]; subst. destruct (piece_title w F1) as [E L]. destruct (IH F3) as [E2 L2].
    cbn [pieces_name flat_map]. rewrite E. cbn [gbind]. rewrite E2. split; [reflexivity |]. rewrite !lenN_app, lenN_cons. lia.
Qed.
Lemma behind_app p l : behind p (p ++ l) = Some l.
Proof. induction p as [| a p IH]; [reflexivity |]. cbn [behind app]. rewrite N.eqb_refl. exact IH. Qed.
Lemma behind_eq p : forall l r, behind p l = Some r -> l = p ++ r.
Proof.
  induction p as [| a p IH]; intros l r; cbn [behind]; [intros [= ->]; reflexivity |]. destruct l as [| b l]; [discriminate |].
  destruct (N.eqb_spec a b); [| discriminate]. intros H. subst. cbn. f_equal. auto.
Qed.
Lemma ident_ascii n : Forall ident_char n -> Forall (fun c => ascii c = true) n.
Proof. apply Forall_impl. unfold ident_char, ascii. intros a A. lia. Qed.
Lemma pascal_done n p add : Forall ident_char n -> lenN n + lenN add < 256 -> exists q, pascal (p ++ n) p add = Done (add ++ q) /\ pascal_name n q.
Proof.
  intros F L. unfold pascal. rewrite behind_app. pose proof (split_words n [] (fun x => x)) as W.
  destruct (pieces_words _ _ W (ident_ascii _ F)) as [E B]. rewrite E. exists (flat_map title (split_at [] n)). cbn [gbind]. cbn [app] in B.
  match goal with |- context [256 <=? ?x] => replace (256 <=? x) with false by (rewrite lenN_app; lia) end.
  split; [reflexivity |]. exists (split_at [] n). split; [exact W | reflexivity].
Qed.

(** ** White space and lines *)
Lemma drop_white_app w l : Forall (fun c => white c = true) w -> drop_white (w ++ l) = drop_white l.
Proof. induction 1 as [| c w C F IH]; [reflexivity |]. cbn [drop_white app]. rewrite C. exact IH. Qed.
Lemma drop_white_stop c l : white c = false -> drop_white (c :: l) = c :: l.
Proof. cbn. intros ->. reflexivity. Qed.
Lemma drop_white_split l : exists w, l = w ++ drop_white l /\ Forall (fun c => white c = true) w.
Proof.
  induction l as [| c l (w & E & F)]; [exists []; auto |]. cbn [drop_white]. destruct (white c) eqn:W; [| exists []; auto].
  exists (c :: w). split; [cbn; now rewrite <- E | auto].
Qed.
Definition stops (l : list N) : Prop := match l with [] => True | c :: _ => white c = true end.
Lemma word_app w l : Forall (fun c => white c = false) w -> stops l -> word (w ++ l) = w /\ past_word (w ++ l) = l.
Proof.
  intros F S. induction F as [| c w C F IH].
  - destruct l as [| c l]; [auto |]. cbn in *. rewrite S. auto.
  - cbn [word past_word app]. rewrite C. destruct IH as [-> ->]. auto.
Qed.
Definition halts (test : N -> bool) (l : list N) : Prop := match l with [] => True | c :: _ => ascii c = true /\ test c = false end.
Lemma pass_app test w l : Forall (fun c => ascii c = true /\ test c = true) w -> halts test l -> pass test (w ++ l) = Done (w, l).
Proof.
  intros F H. induction F as [| c w [A T] F IH].
  - destruct l as [| c l]; [reflexivity |]. cbn in *. destruct H as [-> ->]. reflexivity.
  - cbn [pass app]. rewrite A, T, IH. reflexivity.
Qed.
Lemma no_comment_prefix l : exists r, l = no_comment l ++ r.
Proof.
  induction l as [| a l (r & E)]; [exists []; reflexivity |]. destruct l as [| b l]; [exists []; reflexivity |].
  cbn [no_comment]. destruct ((a =? 47) && (b =? 47)); [exists (a :: b :: l); reflexivity |]. exists r. cbn [app] in *. f_equal. exact E.
Qed.
Lemma no_comment_at a r : exists t, a = no_comment (a ++ 47 :: 47 :: r) ++ t.
Proof.
  induction a as [| x a (t & E)]; [exists []; reflexivity |]. cbn [app]. destruct (a ++ 47 :: 47 :: r) as [| y l] eqn:L; [destruct a; discriminate |].
  cbn [no_comment]. destruct ((x =? 47) && (y =? 47)); [exists (x :: a); reflexivity |]. exists t. cbn [app]. f_equal. exact E.
Qed.
Lemma no_comment_clean a r : Forall (fun c => c <> 47) a -> no_comment (a ++ 47 :: 47 :: r) = a.
Proof.
  induction 1 as [| c a C F IH]; [reflexivity |]. cbn [app]. destruct (a ++ 47 :: 47 :: r) as [| y l] eqn:L; [destruct a; discriminate |].
  cbn [no_comment]. replace (c =? 47) with false by lia. cbn [andb]. f_equal. exact IH.
Qed.
Lemma no_comment_none a : Forall (fun c => c <> 47) a -> no_comment a = a.
Proof.
  induction 1 as [| c a C F IH]; [reflexivity |]. destruct a as [| y a]; [reflexivity |].
  cbn [no_comment]. replace (c =? 47) with false by lia. cbn [andb]. f_equal. exact IH.
Qed.
Lemma cstr_id l : Forall (fun c => c <> 0) l -> upto_nul l = l.
Proof. induction 1 as [| c l C F IH]; [reflexivity |]. cbn [upto_nul]. destruct (N.eqb_spec c 0); [contradiction |]. f_equal. exact IH. Qed.
(** What is left of a line with a remark: the end is white *)
Lemma line_body a r : Forall (fun c => c <> 47 /\ c <> 0) a -> remark r ->
  exists w, no_comment (upto_nul ((a ++ r) ++ [10])) = a ++ w /\ (w = [] \/ w = [10]).
Proof.
  intros F R. assert (F1 : Forall (fun c => c <> 47) a) by (eapply Forall_impl; [| exact F]; cbv beta; tauto).
  assert (F0 : Forall (fun c => c <> 0) a) by (eapply Forall_impl; [| exact F]; cbv beta; tauto).
  destruct R as [-> | (t & -> & T)].
  - rewrite app_nil_r, cstr_id by (apply Forall_app; split; [exact F0 | repeat constructor; discriminate]).
    exists [10]. split; [| auto]. apply no_comment_none. apply Forall_app; split; [exact F1 | repeat constructor; discriminate].
  - rewrite cstr_id.
    + exists []. split; [| auto]. rewrite app_nil_r, <- !app_assoc. change (chars "//") with [47; 47]. cbn [app]. apply no_comment_clean, F1.
    + repeat (apply Forall_app; split); [exact F0 | | | repeat constructor; discriminate].
      * change (chars "//") with [47; 47]. repeat constructor; discriminate.
      * eapply Forall_impl; [| exact T]. cbv beta. tauto.
Qed.
Lemma lines_cons l t : forall cur, Forall (fun c => c <> 10) l -> lenN cur + lenN l <= 1022 ->
  lines (1023 - lenN cur) cur (l ++ 10 :: t) = (cur ++ l ++ [10]) :: lines 1023 [] t.
Proof.
  induction l as [| c l IH]; intros cur F L; cbn [app lines]; [reflexivity |].
  inversion F as [| ? ? C F']; subst. rewrite lenN_cons in L. replace ((c =? 10) || (1023 - lenN cur <=? 1)) with false by lia.
  replace (1023 - lenN cur - 1) with (1023 - lenN (cur ++ [c])) by (rewrite lenN_app; change (lenN [c]) with 1; lia).
  rewrite IH; [| exact F' | rewrite lenN_app; change (lenN [c]) with 1; lia]. now rewrite <- app_assoc.
Qed.
Lemma lines_line l t : Forall (fun c => c <> 10) l -> fits_line l -> lines 1023 [] (l ++ [10] ++ t) = (l ++ [10]) :: lines 1023 [] t.
Proof. intros F L. apply (lines_cons l t []); [exact F | exact L]. Qed.

(** ** One line *)
Lemma blank_white l : blanks l -> Forall (fun c => white c = true) l.
Proof. apply Forall_impl. unfold blank, white. intros a A. lia. Qed.
Lemma blank_ascii l : blanks l -> Forall (fun c => ascii c = true /\ white c = true) l.
Proof. apply Forall_impl. unfold blank, white, ascii. intros a A. lia. Qed.
Lemma ident_plain n : Forall ident_char n -> Forall (fun c => white c = false) n.
Proof. apply Forall_impl. unfold ident_char, white. intros a A. lia. Qed.
Lemma ident_name n : Forall ident_char n -> Forall (fun c => ascii c = true /\ name_char c = true) n.
Proof. apply Forall_impl. unfold ident_char, ascii, name_char, letter_or_digit. intros a A. lia. Qed.
(** Bytes that neither start a remark nor end the line *)
Definition calm (c : N) : Prop := c <> 47 /\ c <> 0.
Lemma calm_blank l : blanks l -> Forall calm l.
Proof. apply Forall_impl. unfold blank, calm. intros a A. lia. Qed.
Lemma calm_ident l : Forall ident_char l -> Forall calm l.
Proof. apply Forall_impl. unfold ident_char, calm. intros a A. lia. Qed.
Lemma calm_value l : Forall value_ok l -> Forall calm l.
Proof. apply Forall_impl. unfold value_ok, calm. intros a A. tauto. Qed.
Lemma calm_comma l : l = [] \/ l = [44] -> Forall calm l.
Proof. intros [-> | ->]; repeat constructor; discriminate. Qed.
Lemma calm_const s : forallb (fun c => negb (c =? 47) && negb (c =? 0)) s = true -> Forall calm s.
Proof. rewrite forallb_forall, Forall_forall. intros H x X. specialize (H x X). unfold calm. lia. Qed.
Lemma stops_blank b l : blanks b -> b <> [] -> stops (b ++ l).
Proof. intros B N. destruct b as [| c b]; [congruence |]. inversion B; subst. cbn. unfold blank, white in *. lia. Qed.
Lemma stops_end b w : blanks b -> (w = [] \/ w = [10]) -> stops (b ++ w).
Proof. intros B W. destruct b as [| c b]; [destruct W as [-> | ->]; cbn; auto |]. inversion B; subst. cbn. unfold blank, white in *. lia. Qed.

Lemma define_processed t name value z l : define_line name value l -> good_name name -> lenN value <= 255 -> literal value z ->
  exists q, pascal_name name q /\ process_line t (l ++ [10]) =
    let& ops := add_const (t_ops t) (chars "Op" ++ q) value in Done (mkt ops (t_errs t) (t_modes t) (t_trans t) (t_others t) (t_last t)).
Proof.
  intros D (NE & NI & NL) VL LIT. destruct (literal_ok _ _ LIT) as [VO (vc & vr & VE)]. destruct D as [a b c r A AN B BN C R].
  set (body := chars "#define" ++ a ++ chars "OP_" ++ name ++ b ++ value ++ c).
  replace (chars "#define" ++ a ++ chars "OP_" ++ name ++ b ++ value ++ c ++ r) with (body ++ r) by (unfold body; now rewrite <- !app_assoc).
  destruct (line_body body r) as (w & E & W); [| exact R |].
  { unfold body. repeat (apply Forall_app; split); try (apply calm_blank; assumption); try (apply calm_ident; assumption); try (apply calm_value; assumption);
      apply calm_const; reflexivity. }
  destruct (pascal_done name (chars "OP_") (chars "Op") NI) as (q & P & Q); [change (lenN (chars "Op")) with 2; lia |].
  exists q. split; [exact Q |]. unfold process_line. rewrite E. unfold body. rewrite <- !app_assoc.
  assert (VW : Forall (fun c => white c = false) value) by (eapply Forall_impl; [| exact VO]; unfold value_ok; cbv beta; tauto).
  unfold scan_define. rewrite behind_app, drop_white_app by (apply blank_white, A).
  change (chars "OP_" ++ name ++ b ++ value ++ c ++ w) with (79 :: chars "P_" ++ name ++ b ++ value ++ c ++ w) at 1.
  rewrite drop_white_stop by reflexivity.
  change (79 :: chars "P_" ++ name ++ b ++ value ++ c ++ w) with (chars "OP_" ++ name ++ b ++ value ++ c ++ w). rewrite behind_app.
  assert (DW : drop_white (name ++ b ++ value ++ c ++ w) = name ++ b ++ value ++ c ++ w).
  { pose proof (ident_plain _ NI) as F. destruct name as [| x y]; [congruence |]. inversion F; subst. apply drop_white_stop. assumption. }
  rewrite DW. destruct (word_app name (b ++ value ++ c ++ w) (ident_plain _ NI) (stops_blank _ _ B BN)) as [-> ->].
  rewrite drop_white_app by (apply blank_white, B).
  assert (DV : drop_white (value ++ c ++ w) = value ++ c ++ w) by (rewrite VE in VW |- *; inversion VW; subst; apply drop_white_stop; assumption).
  rewrite DV. destruct (word_app value (c ++ w) VW (stops_end _ _ C W)) as [-> _].
  replace ((256 <=? lenN name) || (256 <=? lenN value)) with false by lia.
  destruct name as [| x y]; [congruence |]. rewrite VE. cbn [gbind]. rewrite P. reflexivity.
Qed.

Lemma no_define c l : c <> 35 -> scan_define (c :: l) = Done None.
Proof. intros C. unfold scan_define. change (chars "#define") with (35 :: chars "define"). cbn [behind]. replace (35 =? c) with false by lia. reflexivity. Qed.
Lemma past_none l : Forall (fun c => c <> 61) l -> past_equals l = None.
Proof. induction 1 as [| c l C F IH]; [reflexivity |]. cbn. replace (c =? 61) with false by lia. exact IH. Qed.
Lemma past_some a l : Forall (fun c => c <> 61) a -> past_equals (a ++ 61 :: l) = Some l.
Proof. induction 1 as [| c a C F IH]; [reflexivity |]. cbn. replace (c =? 61) with false by lia. exact IH. Qed.
Lemma unequal_blank l : blanks l -> Forall (fun c => c <> 61) l.
Proof. apply Forall_impl. unfold blank. intros a A. lia. Qed.
Lemma unequal_ident l : Forall ident_char l -> Forall (fun c => c <> 61) l.
Proof. apply Forall_impl. unfold ident_char. intros a A. lia. Qed.
(** Behind a name or a value *)
Lemma halts_tail test b comma c w : blanks b -> (comma = [] \/ comma = [44]) -> blanks c -> (w = [] \/ w = [10]) ->
  test 32 = false -> test 9 = false -> test 44 = false -> test 10 = false -> halts test (b ++ comma ++ c ++ w).
Proof.
  intros B K C W T1 T2 T3 T4. assert (one : forall l x r, blanks l -> l = x :: r -> ascii x = true /\ test x = false).
  { intros l x r F ->. inversion F as [| ? ? [-> | ->] _]; subst; auto. }
  destruct b as [| x b]; [| exact (one _ _ _ B eq_refl)]. destruct K as [-> | ->]; [| cbn; auto].
  destruct c as [| x c]; [| exact (one _ _ _ C eq_refl)]. destruct W as [-> | ->]; cbn; auto.
Qed.

Definition value_given (t : tables) (ov : option (list N)) (z : Z) : gen (list N * Z) :=
  match ov with
  | Some v => Done (v, z)
  | None => if (t_last t =? 2 ^ 31 - 1)%Z then Wrapped else Done (decimal_z (t_last t + 1), (t_last t + 1)%Z)
  end.
Lemma entry_processed t name ov z l : entry_line (name, ov) l -> good_entry (name, ov) ->
  match ov with Some v => literal v z /\ (- 2 ^ 31 <= z < 2 ^ 31)%Z | None => True end ->
  process_line t (l ++ [10]) =
    let& (value, last) := value_given t ov z in file_entry (mkt (t_ops t) (t_errs t) (t_modes t) (t_trans t) (t_others t) last) name value.
Proof.
  intros L ((NE & NI & NL) & (nr & NP) & VL) G. cbn [fst snd] in *.
  assert (start : forall a rest, blanks a -> scan_define (a ++ name ++ rest) = Done None /\ pass white (a ++ name ++ rest) = Done (a, name ++ rest)
            /\ begins (chars "CND_") (name ++ rest) = true).
  { intros a rest A. split; [| split].
    - destruct a as [| x a]; [rewrite NP; apply no_define; discriminate |]. inversion A as [| ? ? [-> | ->] _]; subst; apply no_define; discriminate.
    - apply pass_app; [apply blank_ascii, A |]. rewrite NP. cbn. auto.
    - rewrite NP, <- app_assoc. unfold begins. now rewrite behind_app. }
  assert (len : (256 <=? lenN name) = false) by lia. clear NP nr.
  inversion L as [n0 a b comma c r A B K C R E1 E2 | n0 value a b d e comma c r A B D E K C R E1 E2]; subst; clear L; try rename n0 into name.
  - set (body := a ++ name ++ b ++ comma ++ c). replace (a ++ name ++ b ++ comma ++ c ++ r) with (body ++ r) by (unfold body; now rewrite <- !app_assoc).
    destruct (line_body body r) as (w & E & W); [| exact R |].
    { unfold body. repeat (apply Forall_app; split); try (apply calm_blank; assumption); try (apply calm_ident; assumption). apply calm_comma, K. }
    unfold process_line. rewrite E. unfold body. rewrite <- !app_assoc. destruct (start a (b ++ comma ++ c ++ w) A) as (S1 & S2 & S3).
    rewrite S1. cbn [gbind]. rewrite S2. cbn [gbind]. rewrite S3.
    rewrite (pass_app name_char name (b ++ comma ++ c ++ w)); [| apply ident_name, NI | apply halts_tail; auto]. cbn [gbind].
    rewrite len. unfold entry_value. rewrite past_none; [reflexivity |].
    repeat (apply Forall_app; split); try (apply unequal_blank; assumption); try (apply unequal_ident; assumption).
    + destruct K as [-> | ->]; repeat constructor; discriminate.
    + destruct W as [-> | ->]; repeat constructor; discriminate.
  - destruct G as [LIT RG]. destruct (literal_ok _ _ LIT) as [VO (vc & vr & VE)].
    set (body := a ++ name ++ b ++ [61] ++ d ++ value ++ e ++ comma ++ c).
    replace (a ++ name ++ b ++ [61] ++ d ++ value ++ e ++ comma ++ c ++ r) with (body ++ r) by (unfold body; now rewrite <- !app_assoc).
    destruct (line_body body r) as (w & EB & W); [| exact R |].
    { unfold body. repeat (apply Forall_app; split); try (apply calm_blank; assumption); try (apply calm_ident; assumption);
        try (apply calm_value; assumption); try (apply calm_comma, K). repeat constructor; discriminate. }
    unfold process_line. rewrite EB. unfold body. rewrite <- !app_assoc. destruct (start a (b ++ [61] ++ d ++ value ++ e ++ comma ++ c ++ w) A) as (S1 & S2 & S3).
    rewrite S1. cbn [gbind]. rewrite S2. cbn [gbind]. rewrite S3.
    rewrite (pass_app name_char name (b ++ [61] ++ d ++ value ++ e ++ comma ++ c ++ w)).
    2: apply ident_name, NI.
    2: { destruct b as [| x b]; [cbn; auto |]. inversion B as [| ? ? [-> | ->] _]; subst; cbn; auto. }
    cbn [gbind]. rewrite len. unfold entry_value. rewrite app_assoc. cbn [app].
    rewrite past_some by (apply Forall_app; split; [apply unequal_ident, NI | apply unequal_blank, B]).
    rewrite (pass_app white d); [| apply blank_ascii, D |].
    2: { rewrite VE in VO |- *. inversion VO as [| ? ? V0 _]; subst. unfold value_ok in V0. cbn. tauto. }
    cbn [gbind]. rewrite (pass_app value_char value).
    2: { eapply Forall_impl; [| exact VO]. unfold value_ok. cbv beta. tauto. }
    2: apply halts_tail; auto.
    cbn [gbind]. replace (256 <=? lenN value) with false by lia. cbn [gbind value_given].
    rewrite (literal_strtol _ _ LIT RG). replace (to_int z) with z by (unfold to_int; rewrite Z.mod_small by lia; lia). reflexivity.
Qed.

Lemma white_space a : Forall (fun c => white c = true) a -> Forall (fun c => c = 32 \/ 9 <= c <= 13) a.
Proof. apply Forall_impl. unfold white. intros x X. lia. Qed.
Lemma pass_white l : Forall (fun c => ascii c = true) l -> exists a, pass white l = Done (a, drop_white l) /\ l = a ++ drop_white l /\ Forall (fun c => white c = true) a.
Proof.
  induction 1 as [| c l A F (a & E & S & W)]; [exists []; auto |]. cbn [pass drop_white]. rewrite A. destruct (white c) eqn:X; [| exists []; auto].
  exists (c :: a). rewrite E. split; [reflexivity |]. split; [cbn; now rewrite <- S | auto].
Qed.
Lemma other_processed t l : other_line l -> process_line t (l ++ [10]) = Done t.
Proof.
  intros (code & r & -> & FC & R & _ & NC & ND). unfold process_line.
  set (body := no_comment (upto_nul ((code ++ r) ++ [10]))).
  assert (NZ : upto_nul ((code ++ r) ++ [10]) = (code ++ r) ++ [10]).
  { apply cstr_id. repeat (apply Forall_app; split); [eapply Forall_impl; [| exact FC]; cbv beta; lia | | repeat constructor; discriminate].
    destruct R as [-> | (u & -> & U)]; [constructor |]. apply Forall_app. split; [change (chars "//") with [47; 47]; repeat constructor; discriminate |].
    eapply Forall_impl; [| exact U]. cbv beta. tauto. }
  assert (B : exists s, code ++ [10] = body ++ s).
  { unfold body. rewrite NZ. destruct R as [-> | (u & -> & U)].
    - rewrite app_nil_r. apply no_comment_prefix.
    - rewrite <- !app_assoc. change (chars "//") with [47; 47]. cbn [app]. destruct (no_comment_at code (u ++ [10])) as (s & S). exists (s ++ [10]).
      rewrite app_assoc, <- S. reflexivity. }
  destruct B as (s & B).
  assert (AS : Forall (fun c => ascii c = true) body).
  { assert (H : Forall (fun c => ascii c = true) (code ++ [10])).
    { apply Forall_app. split; [eapply Forall_impl; [| exact FC]; unfold ascii; cbv beta; lia | repeat constructor]. }
    rewrite B in H. apply Forall_app in H. tauto. }
  (* a beginning of the code and the newline that does not end in a newline is one of the code *)
  assert (cut : forall u v x, body = u ++ x :: v -> x <> 10 -> exists v', code = u ++ x :: v').
  { intros u v x E X. rewrite E in B. rewrite <- app_assoc in B. cbn [app] in B. destruct (v ++ s) as [| y vs] eqn:VS.
    - apply app_inj_tail in B. destruct B as [_ B]. congruence.
    - destruct (@exists_last _ (y :: vs)) as (v' & z & V); [discriminate |]. rewrite V in B.
      change (x :: v' ++ [z]) with ((x :: v') ++ [z]) in B. rewrite app_assoc in B. apply app_inj_tail in B. exists v'. tauto. }
  assert (H1 : scan_define body = Done None).
  { unfold scan_define. destruct (behind (chars "#define") body) as [b1 |] eqn:B1; [| reflexivity]. apply behind_eq in B1.
    destruct (drop_white_split b1) as (a & E1 & W1). destruct (behind (chars "OP_") (drop_white b1)) as [b2 |] eqn:B2; [| reflexivity]. apply behind_eq in B2.
    exfalso. destruct (cut (chars "#define" ++ a ++ chars "OP") b2 95) as (v' & V); [| discriminate |].
    - rewrite B1, E1, B2. change (chars "OP_") with (chars "OP" ++ [95]). now rewrite <- !app_assoc.
    - apply (ND a v' (white_space _ W1)). rewrite V. change (chars "OP_") with (chars "OP" ++ [95]). now rewrite <- !app_assoc. }
  rewrite H1. cbn [gbind]. destruct (pass_white body AS) as (a & P1 & P2 & P3). rewrite P1. cbn [gbind]. unfold begins.
  destruct (behind (chars "CND_") (drop_white body)) as [b2 |] eqn:B2; [| reflexivity]. apply behind_eq in B2. exfalso.
  destruct (cut (a ++ chars "CND") b2 95) as (v' & V); [| discriminate |].
  - rewrite P2, B2 at 1. change (chars "CND_") with (chars "CND" ++ [95]). now rewrite <- !app_assoc.
  - apply (NC a v' (white_space _ P3)). rewrite V. change (chars "CND_") with (chars "CND" ++ [95]). now rewrite <- !app_assoc.
Qed.

(** ** The tables *)
Definition tab (g : group) (t : tables) : list const :=
  match g with Errors => t_errs t | Modes => t_modes t | Transforms => t_trans t | Opcodes => t_ops t | Orders => t_others t end.
Definition room (cs : list (list N * Z)) (t : tables) : Prop := forall g, lenN (tab g t) + lenN (filter (member g) cs) <= 256.
Definition grown (cs : list (list N * Z)) (t t' : tables) : Prop := forall g, exists ds, tab g t' = tab g t ++ ds /\ declared g cs ds.
Lemma declared_len g cs ds : declared g cs ds -> lenN ds = lenN (filter (member g) cs).
Proof. unfold declared, lenN. induction 1; cbn [List.length]; lia. Qed.
Lemma declared_app g a b ds es : declared g a ds -> declared g b es -> declared g (a ++ b) (ds ++ es).
Proof. unfold declared. rewrite filter_app. apply Forall2_app. Qed.
Lemma grown_app a b t t' t'' : grown a t t' -> grown b t' t'' -> grown (a ++ b) t t''.
Proof.
  intros A B g. destruct (A g) as (ds & E & D). destruct (B g) as (es & E' & D'). exists (ds ++ es). split; [| now apply declared_app].
  now rewrite E', E, <- app_assoc.
Qed.
Lemma room_app a b t t' : room (a ++ b) t -> grown a t t' -> room b t'.
Proof.
  intros R G g. specialize (R g). destruct (G g) as (ds & E & D). rewrite filter_app, lenN_app in R. rewrite E, lenN_app.
  pose proof (declared_len _ _ _ D) as X. unfold const in *. lia.
Qed.
Lemma room_first a b t : room (a ++ b) t -> room a t.
Proof. intros R g. specialize (R g). rewrite filter_app, lenN_app in R. lia. Qed.
Lemma grown_nil t : grown [] t t.
Proof. intros g. exists []. split; [now rewrite app_nil_r | constructor]. Qed.
Lemma prefix_begins p n z : has_prefix p (n, z) = begins p n.
Proof.
  unfold has_prefix, begins. cbn [fst]. destruct (behind p n) as [r |] eqn:B.
  - apply behind_eq in B. subst. rewrite firstn_app, Nat.sub_diag, firstn_O, app_nil_r, firstn_all. destruct (list_eq_dec _ _ _); congruence.
  - destruct (list_eq_dec _ _ _) as [E |]; [| reflexivity]. exfalso. rewrite <- (firstn_skipn (List.length p) n), E, behind_app in B. discriminate.
Qed.
Lemma begins_eq p n : begins p n = true -> exists r, n = p ++ r.
Proof. unfold begins. destruct (behind p n) as [r |] eqn:B; [| discriminate]. intros _. exists r. now apply behind_eq. Qed.
Lemma ident_app a b : Forall ident_char (a ++ b) -> Forall ident_char b.
Proof. intros F. apply Forall_app in F. tauto. Qed.

(** The groups have nothing in common *)
Lemma begins_two p q n : begins p n = true -> begins q n = true -> exists a b, p ++ a = q ++ b.
Proof. intros A B. destruct (begins_eq _ _ A) as (a & ->). destruct (begins_eq _ _ B) as (b & E). eauto. Qed.
Ltac apart H K := exfalso; destruct (begins_two _ _ _ H K) as (x & y & E); vm_compute in E; discriminate E.

Lemma filed t name value z : good_name name -> (exists r, name = chars "CND_" ++ r) -> literal value z -> room [(name, z)] t ->
  exists t', file_entry t name value = Done t' /\ t_last t' = t_last t /\ grown [(name, z)] t t'.
Proof.
  intros (NE & NI & NL) (r0 & N0) LIT R.
  assert (C0 : begins (chars "CND_") name = true) by (rewrite N0; unfold begins; now rewrite behind_app).
  assert (NOP : begins (chars "OP_") name = false).
  { destruct (begins (chars "OP_") name) eqn:X; [| reflexivity]. apart X C0. }
  assert (MEM : forall g, member g (name, z) = match g with
    | Errors => begins (chars "CND_ERR_") name | Modes => begins (chars "CND_MODE_") name | Transforms => begins (chars "CND_TRANS_") name
    | Opcodes => false | Orders => begins (chars "CND_LE") name || begins (chars "CND_BE") name end).
  { intros []; cbn [member]; rewrite ?prefix_begins; auto. }
  assert (ROOM : forall g, member g (name, z) = true -> (256 <=? lenN (tab g t)) = false).
  { intros g M. specialize (R g). cbn [filter] in R. rewrite M in R. change (lenN [(name, z)]) with 1 in R. lia. }
  unfold file_entry.
  assert (go : forall g p add n, begins p name = true -> name = p ++ n -> lenN add <= lenN p -> member g (name, z) = true -> (forall g', g' <> g -> member g' (name, z) = false) ->
            name_in g = named p add -> forall put : list const -> tables,
            (forall l, t_last (put l) = t_last t) -> (forall l g', tab g' (put l) = if match g, g' with Errors, Errors | Modes, Modes | Transforms, Transforms | Opcodes, Opcodes | Orders, Orders => true | _, _ => false end then l else tab g' t) ->
            exists t', (let& n := pascal name p add in let& l := add_const (tab g t) n value in Done (put l)) = Done t' /\ t_last t' = t_last t /\ grown [(name, z)] t t').
  { intros g p add n B EN LP M OTHER NI' put PL PT. destruct (pascal_done n p add) as (q & P & Q).
    { rewrite EN in NI. now apply ident_app in NI. } { rewrite EN, lenN_app in NL. lia. }
    rewrite <- EN in P. rewrite P. cbn [gbind]. unfold add_const. rewrite (ROOM _ M). cbn [gbind]. eexists. split; [reflexivity |]. split; [apply PL |].
    intros g'. rewrite PT. destruct (match g, g' with Errors, Errors | Modes, Modes | Transforms, Transforms | Opcodes, Opcodes | Orders, Orders => true | _, _ => false end) eqn:SG.
    - assert (g' = g) as -> by (destruct g, g'; congruence). exists [(add ++ q, value)]. split; [reflexivity |]. unfold declared. cbn [filter]. rewrite M.
      constructor; [| constructor]. cbn [fst snd]. split; [| exact LIT]. rewrite NI'. exists n, q. auto.
    - exists []. split; [now rewrite app_nil_r |]. unfold declared. cbn [filter]. rewrite OTHER by (intros ->; destruct g; discriminate). constructor. }
  destruct (begins (chars "CND_ERR_") name) eqn:B1.
  { destruct (begins_eq _ _ B1) as (n & EN).
    apply (go Errors (chars "CND_ERR_") (chars "Err") n B1 EN ltac:(vm_compute; discriminate)); auto.
    - rewrite MEM. reflexivity.
    - intros [] G; try congruence; rewrite MEM; try reflexivity.
      + destruct (begins (chars "CND_MODE_") name) eqn:X; [apart X B1 | reflexivity].
      + destruct (begins (chars "CND_TRANS_") name) eqn:X; [apart X B1 | reflexivity].
      + destruct (begins (chars "CND_LE") name) eqn:X; [apart X B1 |]. destruct (begins (chars "CND_BE") name) eqn:Y; [apart Y B1 | reflexivity].
    - intros l []; reflexivity. }
  destruct (begins (chars "CND_MODE_") name) eqn:B2.
  { destruct (begins_eq _ _ B2) as (n & EN).
    apply (go Modes (chars "CND_MODE_") (chars "Mode") n B2 EN ltac:(vm_compute; discriminate)); auto.
    - rewrite MEM. reflexivity.
    - intros [] G; try congruence; rewrite MEM; try reflexivity.
      + destruct (begins (chars "CND_TRANS_") name) eqn:X; [apart X B2 | reflexivity].
      + destruct (begins (chars "CND_LE") name) eqn:X; [apart X B2 |]. destruct (begins (chars "CND_BE") name) eqn:Y; [apart Y B2 | reflexivity].
    - intros l []; reflexivity. }
  destruct (begins (chars "CND_TRANS_") name) eqn:B3.
  { destruct (begins_eq _ _ B3) as (n & EN).
    apply (go Transforms (chars "CND_TRANS_") (chars "Trans") n B3 EN ltac:(vm_compute; discriminate)); auto.
    - rewrite MEM. reflexivity.
    - intros [] G; try congruence; rewrite MEM; try reflexivity.
      destruct (begins (chars "CND_LE") name) eqn:X; [apart X B3 |]. destruct (begins (chars "CND_BE") name) eqn:Y; [apart Y B3 | reflexivity].
    - intros l []; reflexivity. }
  destruct (begins (chars "CND_LE") name || begins (chars "CND_BE") name) eqn:B4.
  { apply (go Orders (chars "CND_") [] r0 C0 N0 ltac:(vm_compute; discriminate)); auto.
    - rewrite MEM. reflexivity.
    - intros [] G; try congruence; rewrite MEM; auto.
    - intros l []; reflexivity. }
  exists t. split; [reflexivity |]. split; [reflexivity |]. intros g. exists []. split; [now rewrite app_nil_r |]. unfold declared. cbn [filter].
  rewrite MEM. destruct g; rewrite ?B1, ?B2, ?B3, ?B4; constructor.
Qed.

(** ** Chunks *)
Definition in_int (c : list N * Z) : Prop := (- 2 ^ 31 <= snd c < 2 ^ 31)%Z.
Lemma process_app t a b : process_lines t (a ++ b) = let& t := process_lines t a in process_lines t b.
Proof. revert t. induction a as [| l a IH]; intros t; [reflexivity |]. cbn [process_lines app]. destruct (process_line t l); cbn [gbind]; auto. Qed.
Lemma clean_blank l : blanks l -> Forall (fun c => c <> 10) l.
Proof. apply Forall_impl. unfold blank. intros a A. lia. Qed.
Lemma clean_ident l : Forall ident_char l -> Forall (fun c => c <> 10) l.
Proof. apply Forall_impl. unfold ident_char. intros a A. lia. Qed.
Lemma clean_value l z : literal l z -> Forall (fun c => c <> 10) l.
Proof. intros H. destruct (literal_ok _ _ H) as [F _]. eapply Forall_impl; [| exact F]. unfold value_ok. cbv beta. tauto. Qed.
Lemma clean_remark l : remark l -> Forall (fun c => c <> 10) l.
Proof.
  intros [-> | (r & -> & F)]; [constructor |]. apply Forall_app. split; [change (chars "//") with [47; 47]; repeat constructor; discriminate |].
  eapply Forall_impl; [| exact F]. cbv beta. tauto.
Qed.
Lemma clean_comma l : l = [] \/ l = [44] -> Forall (fun c => c <> 10) l.
Proof. intros [-> | ->]; repeat constructor; discriminate. Qed.
Ltac cleans := repeat (apply Forall_app; split); first [apply clean_blank; assumption | apply clean_ident; assumption | eapply clean_value; eassumption |
  apply clean_remark; assumption | apply clean_comma; assumption | (solve [vm_compute; repeat constructor; discriminate]) | idtac].

Lemma entries_run es : forall text next vs t more, entry_lines es text -> numbered next es vs -> Forall good_entry es -> Forall in_int vs -> room vs t ->
  match es with (_, None) :: _ => t_last t = (next - 1)%Z | _ => True end ->
  exists ls t', lines 1023 [] (text ++ more) = ls ++ lines 1023 [] more /\ process_lines t ls = Done t' /\ grown vs t t'.
Proof.
  induction es as [| [name ov] es IH]; intros text next vs t more L NUM G I R LAST.
  - inversion L; subst. inversion NUM; subst. exists [], t. split; [reflexivity |]. split; [reflexivity | apply grown_nil].
  - inversion L as [| e es' l rest EL FIT TAIL]; subst. inversion G as [| ? ? G1 G2]; subst.
    assert (NI : Forall ident_char name) by (destruct G1 as [(? & ? & ?) _]; assumption).
    assert (CASE : exists z vs', vs = (name, z) :: vs' /\ numbered (z + 1) es vs' /\
              match ov with Some v => literal v z | None => z = next end).
    { inversion NUM; subst; eauto 6. }
    destruct CASE as (z & vs' & -> & NUM' & OV). inversion I as [| ? ? I1 I2]; subst. unfold in_int in I1. cbn [snd] in I1.
    assert (CL : Forall (fun c => c <> 10) l).
    { inversion EL; subst; cbn in OV; cleans. }
    assert (V : exists value, value_given t ov z = Done (value, z) /\ literal value z).
    { destruct ov as [v |]; cbn [value_given]; [eauto |]. subst z. rewrite LAST. replace (next - 1 =? 2 ^ 31 - 1)%Z with false by lia.
      replace (next - 1 + 1)%Z with next by lia. exists (decimal_z next). split; [reflexivity | apply decimal_literal]. }
    destruct V as (value & V & LIT).
    set (t0 := mkt (t_ops t) (t_errs t) (t_modes t) (t_trans t) (t_others t) z).
    assert (T0 : forall g, tab g t0 = tab g t) by (intros []; reflexivity).
    destruct (filed t0 name value z) as (t1 & F & FL & FG).
    { destruct G1 as [X _]. exact X. } { destruct G1 as [_ [X _]]. exact X. } { exact LIT. }
    { intros g. rewrite T0. exact (room_first [(name, z)] vs' t R g). }
    assert (P : process_line t (l ++ [10]) = Done t1).
    { rewrite (entry_processed t name ov z l EL G1); [rewrite V; exact F |]. destruct ov; [split; [exact OV | exact I1] | exact Logic.I]. }
    assert (FG' : grown [(name, z)] t t1) by (intros g; destruct (FG g) as (ds & E & D); exists ds; rewrite <- T0; auto).
    destruct (IH rest (z + 1)%Z vs' t1 more TAIL NUM' G2 I2) as (ls & t' & LS & PL & GR).
    { exact (room_app [(name, z)] vs' t t1 R FG'). }
    { destruct es as [| [n2 [v2 |]] es2]; try exact Logic.I. rewrite FL. cbn [t_last t0]. lia. }
    exists ((l ++ [10]) :: ls), t'. split; [| split].
    + rewrite <- !app_assoc. rewrite (lines_line l (rest ++ more) CL FIT). cbn [app]. f_equal. exact LS.
    + cbn [process_lines]. rewrite P. exact PL.
    + exact (grown_app [(name, z)] vs' t t1 t' FG' GR).
Qed.

Lemma chunks_run cs : forall text vs t, header cs text -> constants cs vs -> Forall good_chunk cs -> Forall in_int vs -> room vs t ->
  exists t', process_lines t (lines 1023 [] text) = Done t' /\ grown vs t t'.
Proof.
  induction cs as [| c cs IH]; intros text vs t H C G I R.
  - inversion H; subst. inversion C; subst. exists t. split; [reflexivity | apply grown_nil].
  - inversion G as [| ? ? G1 G2]; subst. destruct c as [name value | es | other].
    + inversion H as [| n0 v0 l c0 rest DL FIT TAIL | |]; subst. inversion C as [| n0 tx z c0 l0 LIT C' | |]; subst. destruct G1 as [GN GV].
      assert (CL : Forall (fun c => c <> 10) l).
      { destruct GN as (? & ? & ?). inversion DL; subst; cleans. }
      destruct (define_processed t name value z l DL GN GV LIT) as (q & Q & P).
      assert (RM := R Opcodes). cbn [filter member] in RM. rewrite prefix_begins in RM. unfold begins in RM. rewrite behind_app in RM. rewrite lenN_cons in RM.
      cbn [tab] in RM. unfold add_const in P. replace (256 <=? lenN (t_ops t)) with false in P by lia. cbn [gbind] in P.
      match type of P with _ = Done ?x => set (t1 := x) in P end.
      assert (FG : grown [(chars "OP_" ++ name, z)] t t1).
      { assert (OTHER : forall p, hd 0 p = 67 -> begins p (chars "OP_" ++ name) = false).
        { intros p X. destruct p as [| x p]; [discriminate |]. cbn in X. subst. reflexivity. }
        intros []; unfold declared; cbn [filter member]; rewrite ?prefix_begins.
        - exists []. rewrite OTHER by reflexivity. split; [symmetry; apply app_nil_r | constructor].
        - exists []. rewrite OTHER by reflexivity. split; [symmetry; apply app_nil_r | constructor].
        - exists []. rewrite OTHER by reflexivity. split; [symmetry; apply app_nil_r | constructor].
        - exists [(chars "Op" ++ q, value)]. unfold begins. rewrite behind_app. split; [reflexivity |]. constructor; [| constructor].
          split; [| exact LIT]. exists name, q. auto.
        - exists []. rewrite !OTHER by reflexivity. split; [symmetry; apply app_nil_r | constructor]. }
      inversion I; subst. destruct (IH rest l0 t1 TAIL C' G2) as (t' & P' & FG'); [assumption | exact (room_app [_] l0 t t1 R FG) |].
      exists t'. split; [| exact (grown_app [_] l0 t t1 t' FG FG')]. rewrite (lines_line l rest CL FIT). cbn [process_lines]. rewrite P. exact P'.
    + inversion H as [| | es0 l c0 rest EL TAIL |]; subst. inversion C as [| | es0 vs0 c0 l0 NUM C' |]; subst. destruct G1 as [GE GF].
      apply Forall_app in I. destruct I as [I1 I2].
      destruct (entries_run es l 0%Z vs0 t rest EL NUM GE I1 (room_first _ _ _ R)) as (ls & t1 & LS & P & FG).
      { destruct es as [| [n [v |]] es]; auto. contradiction. }
      destruct (IH rest l0 t1 TAIL C' G2 I2 (room_app _ _ _ _ R FG)) as (t' & P' & FG').
      exists t'. split; [| exact (grown_app _ _ _ _ _ FG FG')]. rewrite LS, process_app, P. exact P'.
    + inversion H as [| | | l c0 rest OL FIT TAIL]; subst. inversion C as [| | | tt c0 l0 C']; subst.
      assert (CL : Forall (fun c => c <> 10) other).
      { destruct OL as (code & r & -> & FC & RM & _). apply Forall_app. split; [eapply Forall_impl; [| exact FC]; cbv beta; tauto | apply clean_remark, RM]. }
      destruct (IH rest vs t TAIL C' G2 I R) as (t' & P' & FG'). exists t'. split; [| exact FG'].
      rewrite (lines_line other rest CL FIT). cbn [process_lines]. rewrite (other_processed t other OL). exact P'.
Qed.

Lemma listing_block first before between behind last ds item : (forall d, item d = before ++ fst d ++ between ++ snd d ++ behind ++ endl) ->
  block first item last ds = listing first before between behind last ds.
Proof. intros E. unfold block, listing. destruct ds; [reflexivity |]. now rewrite (flat_map_ext _ _ E). Qed.
Lemma go_block type last ds : block (chars "const (" ++ nl) (go_item (chars type)) (chars ")" ++ nl ++ last) ds = go_consts type last ds.
Proof. apply listing_block. intros d. unfold go_item, nl, endl. now rewrite <- ?app_assoc. Qed.
Lemma python_block name ds : python_class name ds = python_enum name ds.
Proof. apply listing_block. reflexivity. Qed.
Lemma ts_block name ds : ts_enum name ds = typescript_enum name ds.
Proof. apply listing_block. reflexivity. Qed.
Lemma go_text t : generate_go t = go_file (t_errs t) (t_modes t) (t_trans t) (t_ops t) (t_others t).
Proof.
  unfold generate_go, go_file. change (chars ")" ++ nl) with (chars ")" ++ nl ++ []). change (go_item []) with (go_item (chars "")).
  rewrite (go_block " Error" nl), (go_block " Mode" nl), (go_block " Trans" nl), (go_block " OpCode" nl), (go_block "" []).
  change nl with endl. generalize (go_consts " Error" endl (t_errs t)), (go_consts " Mode" endl (t_modes t)), (go_consts " Trans" endl (t_trans t)),
    (go_consts " OpCode" endl (t_ops t)), (go_consts "" [] (t_others t)). reflexivity.
Qed.
Lemma python_text t : generate_python t = python_file (t_errs t) (t_modes t) (t_trans t) (t_ops t).
Proof.
  unfold generate_python, python_file. rewrite (python_block "Error"), (python_block "Mode"), (python_block "Trans"), (python_block "OpCode").
  generalize (python_enum "Error" (t_errs t)), (python_enum "Mode" (t_modes t)), (python_enum "Trans" (t_trans t)), (python_enum "OpCode" (t_ops t)). reflexivity.
Qed.
Lemma ts_text t : generate_ts t = typescript_file (t_errs t) (t_modes t) (t_trans t) (t_ops t).
Proof.
  unfold generate_ts, typescript_file. rewrite (ts_block "Error"), (ts_block "Mode"), (ts_block "Trans"), (ts_block "OpCode").
  generalize (typescript_enum "Error" (t_errs t)), (typescript_enum "Mode" (t_modes t)), (typescript_enum "Trans" (t_trans t)), (typescript_enum "OpCode" (t_ops t)).
  reflexivity.
Qed.

(** Checks, for examples *)
Definition other_check (code : list N) : bool :=
  forallb (fun c => (0 <? c) && (c <? 128) && negb (c =? 10)) code && (List.length (no_comment code) =? List.length code)%nat &&
  negb (begins (chars "CND_") (drop_white code)) &&
  match behind (chars "#define") code with Some r => negb (begins (chars "OP_") (drop_white r)) | None => true end.
Lemma space_white a : Forall (fun c => c = 32 \/ 9 <= c <= 13) a -> Forall (fun c => white c = true) a.
Proof. apply Forall_impl. unfold white. intros x X. lia. Qed.
Lemma other_checked code r : other_check code = true -> remark r -> other_line (code ++ r).
Proof.
  unfold other_check. rewrite !andb_true_iff, forallb_forall. intros [[[A B] C] D] R. exists code, r. split; [reflexivity |]. split.
  { apply Forall_forall. intros x X. specialize (A x X). lia. }
  split; [exact R |]. apply Nat.eqb_eq in B. split; [| split].
  - intros a t E. destruct (no_comment_at a t) as (s & S). change (47 :: 47 :: t) with (chars "//" ++ t) in S. rewrite <- E in S.
    apply (f_equal (@List.length N)) in E, S. rewrite !app_length in E, S. cbn in E. lia.
  - intros a t W E. rewrite E, drop_white_app in C by (apply space_white, W).
    change (chars "CND_" ++ t) with (67 :: chars "ND_" ++ t) in C. rewrite drop_white_stop in C by reflexivity. discriminate C.
  - intros a t W E. rewrite E, behind_app, drop_white_app in D by (apply space_white, W).
    change (chars "OP_" ++ t) with (79 :: chars "P_" ++ t) in D. rewrite drop_white_stop in D by reflexivity. discriminate D.
Qed.
Lemma blanks_check l : forallb (fun c => (c =? 32) || (c =? 9)) l = true -> blanks l.
Proof. rewrite forallb_forall. intros H. apply Forall_forall. intros x X. specialize (H x X). unfold blank. lia. Qed.
Lemma ident_check l : forallb name_char l = true -> Forall ident_char l.
Proof. rewrite forallb_forall. intros H. apply Forall_forall. intros x X. specialize (H x X). unfold name_char, letter_or_digit, ident_char in *. lia. Qed.
Lemma name_check n : match n with [] => false | _ => true end && forallb name_char n && (lenN n <=? 250) = true -> good_name n.
Proof. rewrite !andb_true_iff. intros [[A B] C]. split; [destruct n; congruence |]. split; [apply ident_check, B | lia]. Qed.
Lemma remark_check r : forallb (fun c => negb (c =? 10) && negb (c =? 0)) r = true -> remark (chars "//" ++ r).
Proof. rewrite forallb_forall. intros H. right. exists r. split; [reflexivity |]. apply Forall_forall. intros x X. specialize (H x X). lia. Qed.
Lemma hex_one c v : hex_digit c v -> literal (chars "0x0" ++ [c]) (Z.of_N v).
Proof.
  intros H. apply (lit_hex 48 [c]). replace (Z.of_N v) with (16 * 0 + Z.of_N v)%Z by lia. apply (hex_snoc [48] 0); [| exact H].
  apply (hex_snoc [] 0 48 0); [constructor | unfold hex_digit; lia].
Qed.
Lemma digit_literal c : 48 <= c <= 57 -> literal [c] (Z.of_N (c - 48)).
Proof.
  intros H. destruct (N.eq_dec c 48) as [-> | N]; [apply lit_zero |]. replace (Z.of_N (c - 48)) with (10 * 0 + (Z.of_N c - 48))%Z by lia.
  apply lit_dec; [exact N |]. apply (dec_snoc [] 0); [constructor | exact H].
Qed.
