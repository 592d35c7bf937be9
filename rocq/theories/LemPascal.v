(** Names of the bindings stay apart *)
From Coq Require Import Strings.String.
From Verif Require Import Base LemBase ModelText ModelBindings SpecBindings LemBindings.
Local Open Scope string_scope.
Local Open Scope list_scope.
Local Open Scope N_scope.

Lemma words_join n ws : words n ws -> forall m, words m ws -> n = m.
Proof.
  induction 1 as [w N | w n ws N W IH]; intros m M.
  - inversion M; subst; [reflexivity |]. match goal with H : words _ [] |- _ => inversion H end.
  - inversion M as [| w' n' ws' N' W']; subst; [inversion W |]. f_equal. f_equal. auto.
Qed.
Lemma words_one n ws : words n ws -> forall vs, words n vs -> ws = vs.
Proof.
  induction 1 as [w N | w n ws N W IH]; intros vs V.
  - inversion V as [| w' n' ws' N' W']; subst; [reflexivity |]. contradiction N. apply in_app_iff. cbn. auto.
  - inversion V as [v N' E | w' n' ws' N' W' E]; subst; [contradiction N'; apply in_app_iff; cbn; auto |].
    assert (w' = w /\ n' = n) as [-> ->].
    { clear - E N N'. revert w' E N'. induction w as [| x w J]; intros [| y w'] E N'; cbn in E.
      - split; congruence.
      - exfalso. apply N'. left. congruence.
      - exfalso. apply N. left. congruence.
      - assert (w' = w /\ n' = n) as [-> ->]; [| split; congruence]. apply J; [intros Z; apply N; right; exact Z | congruence | intros Z; apply N'; right; exact Z]. }
    f_equal. apply IH, W'.
Qed.

Definition cap (c : N) : bool := (65 <=? c) && (c <=? 90).
(** The end, or a capital *)
Definition fresh (l : list N) : Prop := match l with [] => True | c :: _ => cap c = true end.
Definition tail_char (d : N) : Prop := capital d \/ 48 <= d <= 57.
Lemma small_low d : tail_char d -> cap (SpecBindings.small d) = false.
Proof. unfold tail_char, capital, cap, SpecBindings.small. intros H. destruct ((65 <=? d) && (d <=? 90)) eqn:E; lia. Qed.
Lemma small_inj d e : tail_char d -> tail_char e -> SpecBindings.small d = SpecBindings.small e -> d = e.
Proof. unfold tail_char, capital, SpecBindings.small. intros H K. destruct ((65 <=? d) && (d <=? 90)) eqn:E, ((65 <=? e) && (e <=? 90)) eqn:F; lia. Qed.
Lemma run_inj r : forall s R R', Forall tail_char r -> Forall tail_char s -> fresh R -> fresh R' ->
  map SpecBindings.small r ++ R = map SpecBindings.small s ++ R' -> r = s /\ R = R'.
Proof.
  induction r as [| d r IH]; intros [| e s] R R' A B F G E; cbn [map app] in E.
  - auto.
  - exfalso. inversion B; subst. cbn in F. rewrite small_low in F by assumption. discriminate.
  - exfalso. inversion A; subst. cbn in G. rewrite small_low in G by assumption. discriminate.
  - inversion A; inversion B; subst. injection E as E1 E2. apply small_inj in E1; [| assumption | assumption].
    destruct (IH s R R') as [-> ->]; auto. subst. auto.
Qed.
Lemma title_plain w : plain_word w -> exists c r, title w = c :: r /\ cap c = true.
Proof.
  intros P. destruct w as [| c r]; [contradiction |]. destruct P as [C _]. destruct (keeps (c :: r)) eqn:K.
  - rewrite (keeps_title _ K). exists c, r. split; [reflexivity | unfold cap, capital in *; lia].
  - rewrite (not_keeps _ K). exists (big c), (map SpecBindings.small r). split; [reflexivity |]. unfold big, cap, capital in *.
    replace ((97 <=? c) && (c <=? 122)) with false by lia. lia.
Qed.
Lemma titles_fresh ws : Forall plain_word ws -> fresh (flat_map title ws).
Proof. intros [| w r P F]; [exact Logic.I |]. destruct (title_plain w P) as (c & s & E & C). cbn [flat_map]. rewrite E. exact C. Qed.
Lemma kept_cases w : keeps w = true -> w = chars "OOB" \/ w = chars "CRC" \/ w = chars "ID" \/ w = chars "VM".
Proof.
  unfold keeps. rewrite existsb_exists. intros (k & K & E). destruct (list_eq_dec N.eq_dec w (chars k)) as [-> |]; [| discriminate].
  cbn in K. repeat destruct K as [<- | K]; auto. contradiction.
Qed.
(** A word that is not kept, in front of a capital or the end, is one letter *)
Lemma ordinary w R x S : plain_word w -> keeps w = false -> title w ++ R = x :: S -> fresh S -> exists c, w = [c] /\ c = x /\ R = S.
Proof.
  intros P K E F. rewrite (not_keeps _ K) in E. destruct w as [| c r]; [contradiction |]. destruct P as [C T]. cbn [app] in E. injection E as E1 E2.
  assert (big c = c) as B. { unfold big, capital in *. replace ((97 <=? c) && (c <=? 122)) with false by lia. reflexivity. }
  destruct r as [| d r]; [| exfalso; inversion T; subst; cbn in F; rewrite small_low in F by assumption; discriminate].
  exists c. cbn in E2. split; [reflexivity |]. split; congruence.
Qed.
(** A kept word is not spelled by words of other kinds *)
Lemma kept_apart w R vs : keeps w = true -> fresh R -> Forall plain_word vs -> lones_apart vs -> w ++ R = flat_map title vs ->
  exists vs', vs = w :: vs' /\ R = flat_map title vs'.
Proof.
  intros K F P L E. destruct vs as [| v vs]; [exfalso; apply kept_cases in K; destruct K as [-> | [-> | [-> | ->]]]; discriminate E |].
  inversion P as [| ? ? P1 P2]; subst. cbn [flat_map] in E. destruct (keeps v) eqn:KV.
  - rewrite (keeps_title _ KV) in E. pose proof (kept_cases _ K) as CK. pose proof (kept_cases _ KV) as CV. exists vs.
    destruct CK as [-> | [-> | [-> | ->]]], CV as [-> | [-> | [-> | ->]]]; vm_compute in E; try discriminate E; split; try reflexivity; injection E as E; exact E.
  - exfalso.
    assert (SH : exists a b S, w ++ R = a :: b :: S /\ cap b = true /\ fresh S /\ forall u r, keeps u = true -> u ++ r <> b :: S).
    { destruct (kept_cases _ K) as [-> | [-> | [-> | ->]]]; vm_compute chars; cbn [app].
      - exists 79, 79, (66 :: R). repeat split. intros u r U X. destruct (kept_cases _ U) as [-> | [-> | [-> | ->]]]; vm_compute in X; discriminate X.
      - exists 67, 82, (67 :: R). repeat split. intros u r U X. destruct (kept_cases _ U) as [-> | [-> | [-> | ->]]]; vm_compute in X; discriminate X.
      - exists 73, 68, R. repeat split; try assumption. intros u r U X. destruct (kept_cases _ U) as [-> | [-> | [-> | ->]]]; vm_compute in X; discriminate X.
      - exists 86, 77, R. repeat split; try assumption. intros u r U X. destruct (kept_cases _ U) as [-> | [-> | [-> | ->]]]; vm_compute in X; discriminate X. }
    destruct SH as (a & b & S & EW & CB & FS & NK). rewrite EW in E.
    destruct (ordinary v (flat_map title vs) a (b :: S) P1 KV (eq_sym E) CB) as (c & -> & _ & E2).
    destruct vs as [| u vs]; [discriminate E2 |]. inversion P2 as [| ? ? P3 P4]; subst. cbn [flat_map] in E2.
    destruct (keeps u) eqn:KU; [rewrite (keeps_title _ KU) in E2; exact (NK _ _ KU E2) |].
    destruct (ordinary u (flat_map title vs) b S P3 KU E2 FS) as (d & -> & _ & _). cbn in L. destruct L as [X _]. discriminate X.
Qed.
Lemma lones_tail w ws : lones_apart (w :: ws) -> lones_apart ws.
Proof. destruct ws; [auto |]. cbn. tauto. Qed.
Lemma titles_inj ws : forall vs, Forall plain_word ws -> Forall plain_word vs -> lones_apart ws -> lones_apart vs ->
  flat_map title ws = flat_map title vs -> ws = vs.
Proof.
  induction ws as [| w ws IH]; intros vs P Q L M E.
  - destruct vs as [| v vs]; [reflexivity |]. exfalso. inversion Q as [| ? ? Q1 _]; subst. destruct (title_plain v Q1) as (c & r & T & _). cbn in E. rewrite T in E. discriminate.
  - inversion P as [| ? ? P1 P2]; subst. cbn [flat_map] in E. destruct (keeps w) eqn:K.
    + rewrite (keeps_title _ K) in E. destruct (kept_apart w (flat_map title ws) vs K (titles_fresh _ P2) Q M E) as (vs' & -> & E2).
      f_equal. inversion Q; subst. apply IH; eauto using lones_tail.
    + destruct vs as [| v vs].
      { exfalso. destruct (title_plain w P1) as (c & r & T & _). rewrite T in E. discriminate. }
      inversion Q as [| ? ? Q1 Q2]; subst. cbn [flat_map] in E. destruct (keeps v) eqn:KV.
      * rewrite (keeps_title _ KV) in E. destruct (kept_apart v (flat_map title vs) (w :: ws) KV (titles_fresh _ Q2) P L (eq_sym E)) as (ws' & EW & E2).
        injection EW as -> ->. congruence.
      * rewrite (not_keeps _ K), (not_keeps _ KV) in E. destruct w as [| c r]; [contradiction |]. destruct v as [| d s]; [contradiction |].
        destruct P1 as [C T], Q1 as [D U]. cbn [app] in E. injection E as E1 E2.
        assert (big c = c /\ big d = d) as [B1 B2].
        { unfold big, capital in *. replace ((97 <=? c) && (c <=? 122)) with false by lia. replace ((97 <=? d) && (d <=? 122)) with false by lia. auto. }
        destruct (run_inj r s _ _ T U (titles_fresh _ P2) (titles_fresh _ Q2) E2) as [-> E3].
        f_equal; [congruence |]. apply IH; eauto using lones_tail.
Qed.
Lemma names_apart n m p : plain_name n -> plain_name m -> pascal_name n p -> pascal_name m p -> n = m.
Proof.
  intros (ws & W & P & L) (vs & V & Q & M) (ws' & W' & E) (vs' & V' & E'). rewrite (words_one _ _ W' _ W) in E. rewrite (words_one _ _ V' _ V) in E'.
  assert (ws = vs) as -> by (apply titles_inj; congruence). exact (words_join _ _ W _ V).
Qed.
