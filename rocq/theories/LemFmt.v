(** The formatter on texts cut into tokens and the white space between them. *)
From Verif Require Import Base LemBase ModelText SpecText LemPunct LemLex ModelFmt SpecFmt.
Ltac Zify.zify_post_hook ::= Z.div_mod_to_equations.

Definition white (c : N) : bool := is_space c || (c =? 10).
Definition blanks (k : fkind) : bool := match k with FNewline | FWhite => true | _ => false end.
Definition item : Type := (list N * fkind * list N)%type.

(** [cuts l its t]: [l] is the items, each white space then a token, then the white space [t] *)
Inductive cuts : list N -> list item -> list N -> Prop :=
| cut_end g : all white g -> cuts g [] g
| cut_tok g k v r its t : all white g -> fmt_next (v ++ r) = Some (k, v, r) -> blanks k = false -> v <> [] -> cuts r its t ->
    cuts (g ++ v ++ r) ((g, k, v) :: its) t.
Fixpoint join (its : list item) (t : list N) : list N :=
  match its with [] => t | (g, _, v) :: r => g ++ v ++ join r t end.

Lemma cuts_join l its t : cuts l its t -> l = join its t.
Proof. induction 1; cbn [join]; congruence. Qed.

Lemma next_parts l k v r : fmt_next l = Some (k, v, r) ->
  l = v ++ r /\ v <> [] /\ (blanks k = true -> all white v) /\ (blanks k = false -> white (next_char v) = false).
Proof.
  destruct l as [|c l]; [discriminate|]. cbn [fmt_next].
  assert (P : forall p, let (a, b) := span p l in l = a ++ b /\ all p a) by
    (intros p; pose proof (span_spec p l) as H; destruct (span p l); tauto).
  destruct (N.eqb_spec c 10) as [->|N10].
  { intros [= <- <- <-]. repeat split; try discriminate. intros _. now constructor. }
  destruct (is_space c) eqn:SP.
  { specialize (P is_space). destruct (span is_space l) as [a b]. destruct P as [-> A]. intros [= <- <- <-].
    repeat split; try discriminate. intros _. constructor; [unfold white; now rewrite SP|].
    eapply Forall_impl; [|exact A]. intros x E. unfold white. cbn beta in E. now rewrite E. }
  assert (W : white c = false) by (unfold white; rewrite SP; now apply N.eqb_neq).
  destruct (_ && _).
  { specialize (P (fun x => negb (x =? 10))). destruct (span _ l) as [a b]. destruct P as [-> A]. intros [= <- <- <-].
    repeat split; easy. }
  destruct (fpunct c) as [k'|] eqn:FP.
  { intros [= -> <- <-]. repeat split; try easy. intros B. exfalso. revert FP B. clear.
    unfold fpunct. destruct c as [|c]; [discriminate|]. repeat (destruct c as [c|c|]; try discriminate); intros [= <-]; discriminate. }
  destruct (c =? 34).
  { specialize (P (fun x => negb (x =? 34))). destruct (span _ l) as [a b]. destruct P as [-> A].
    destruct b as [|q b]; intros [= <- <- <-]; repeat split; try easy. cbn. now rewrite <- app_assoc. }
  destruct (is_alpha c).
  { specialize (P is_alnum). destruct (span _ l) as [a b]. destruct P as [-> A]. intros [= <- <- <-]. repeat split; easy. }
  destruct (_ || _).
  { specialize (P is_num). destruct (span _ l) as [a b]. destruct P as [-> A]. intros [= <- <- <-]. repeat split; easy. }
  intros [= <- <- <-]. repeat split; easy.
Qed.

Lemma next_none l : fmt_next l = None -> l = [].
Proof.
  destruct l as [|c l]; [reflexivity|]. cbn [fmt_next].
  repeat match goal with |- context [if ?b then _ else _] => destruct b | |- context [let (_, _) := ?x in _] => destruct x as [? [|? ?]]
    | |- context [match ?x with Some _ => _ | None => _ end] => destruct x end; discriminate.
Qed.

Lemma cuts_white g l its t : all white g -> cuts l its t -> match its with
  | [] => cuts (g ++ l) [] (g ++ t) | (h, k, v) :: r => cuts (g ++ l) ((g ++ h, k, v) :: r) t end.
Proof.
  intros W C. destruct C as [h WH|h k v r its t WH F B V C].
  - constructor. now apply Forall_app.
  - rewrite (app_assoc g h). constructor; auto. now apply Forall_app.
Qed.

Lemma cuts_exists n : forall l, (length l <= n)%nat -> exists its t, cuts l its t.
Proof.
  induction n as [|n IH]; intros l L.
  - destruct l; [|cbn in L; lia]. exists [], []. constructor. constructor.
  - destruct (fmt_next l) as [[[k v] r]|] eqn:F.
    + destruct (next_parts _ _ _ _ F) as (E & V & W & NW). assert (LR : (length r <= n)%nat).
      { subst l. rewrite app_length in L. destruct v; [easy|cbn in L; lia]. }
      destruct (IH r LR) as (its & t & C). destruct (blanks k) eqn:B.
      * pose proof (cuts_white v r its t (W eq_refl) C) as X. subst l. destruct its as [|[[h k'] v'] its]; eauto.
      * exists (([], k, v) :: its), t. subst l. apply (cut_tok [] k v r its t); auto. constructor.
    + apply next_none in F. subst l. exists [], []. constructor. constructor.
Qed.

(** ** The loop over cut texts *)
Definition has_space (g : list N) : bool := existsb is_space g.
Definition note_gap (s : fstate) (g : list N) : fstate :=
  mkf (f_indent s) (N.min 2 (f_newlines s + newlines g))
      (f_space s || (has_space g && match f_prev s with None => false | _ => true end)) (f_fresh s) (f_prev s).
Fixpoint render (s : fstate) (its : list item) : list N :=
  match its with
  | [] => [10]
  | (g, k, v) :: r => let (o, s) := put_token (note_gap s g) k v in o ++ render s r
  end.

Definition sane (s : fstate) : Prop := f_newlines s <= 2 /\ f_prev s <> Some FNewline.

Lemma span_white g r : all white g -> exists a b, g = a ++ b /\ all is_space a /\ all white b /\ is_space (next_char b) = false /\
  (is_space (next_char r) = false -> span is_space (g ++ r) = (a, b ++ r)).
Proof.
  induction 1 as [|c g W G (a & b & E & A & B & NB & S)].
  - exists [], []. repeat split; try constructor. intros R. destruct r as [|c r]; [reflexivity|]. cbn in R. cbn [app span]. now rewrite R.
  - destruct (is_space c) eqn:SP.
    + exists (c :: a), b. subst g. repeat split; auto. { now constructor. }
      intros R. cbn [app span]. rewrite SP. cbn [app] in S. rewrite S by auto. reflexivity.
    + exists [], (c :: g). repeat split; try constructor; auto. intros R. cbn [app span]. now rewrite SP.
Qed.

Lemma has_space_app a b : has_space (a ++ b) = has_space a || has_space b.
Proof. apply existsb_app. Qed.

Lemma space_no_nl a : all is_space a -> newlines a = 0.
Proof.
  intros A. apply newlines_none. intros I. apply (proj1 (Forall_forall _ _) A) in I. discriminate.
Qed.

Lemma loop_white n : forall g r s fuel, (length g <= n)%nat -> all white g -> white (next_char r) = false -> sane s ->
  (length (g ++ r) < fuel)%nat ->
  exists fuel', (length r < fuel')%nat /\ fmt_loop fuel (g ++ r) s = fmt_loop fuel' r (note_gap s g).
Proof.
  induction n as [|n IH]; intros g r s fuel L W R SA F.
  - destruct g; [|cbn in L; lia]. exists fuel. split; [exact F|]. cbn [app]. f_equal. destruct s as [i nl sp fr pv].
    destruct SA as [SA _]. unfold note_gap. cbn [f_indent f_newlines f_space f_fresh f_prev has_space existsb newlines filter] in *.
    change (newlines []) with 0. f_equal; [cbn in SA; lia|now rewrite orb_false_r].
  - destruct g as [|c g]; [apply (IH [] r s fuel); cbn; auto; lia|].
    destruct fuel as [|fuel]; [lia|]. inversion W as [|? ? Wc Wg]; subst. cbn [length] in L.
    assert (RS : is_space (next_char r) = false) by (unfold white in R; now destruct (is_space (next_char r))).
    cbn [app fmt_loop fmt_next]. destruct (N.eqb_spec c 10) as [->|N10].
    + destruct (IH g r (note_newline s) fuel) as (f' & L' & E); auto; [lia| |cbn [app length] in F; lia|].
      { destruct SA as [A B]. split; [|exact B]. cbn. destruct (N.ltb_spec (f_newlines s) 2); lia. }
      exists f'. split; [exact L'|]. rewrite E. f_equal. destruct SA as [A B]. unfold note_gap, note_newline.
      cbn [f_indent f_newlines f_space f_fresh f_prev]. rewrite newlines_cons. cbn [N.eqb Pos.eqb].
      f_equal. destruct (N.ltb_spec (f_newlines s) 2); lia.
    + assert (SC : is_space c = true). { unfold white in Wc. apply orb_true_iff in Wc. destruct Wc as [|X]; [auto|]. apply N.eqb_eq in X. easy. }
      rewrite SC. destruct (span_white g r Wg) as (a & b & Eg & A & B & NB & S). rewrite (S RS).
      destruct (IH b r (note_white s) fuel) as (f' & L' & E); auto.
      { subst g. rewrite app_length in L. lia. }
      { destruct SA as [X Y]. unfold note_white. split; destruct (f_prev s) as [[]|] eqn:?; cbn [f_newlines f_prev]; auto; congruence. }
      { subst g. cbn [app length] in F. rewrite <- app_assoc, app_length in F. rewrite app_length in *. lia. }
      exists f'. split; [exact L'|]. rewrite E. f_equal. destruct SA as [X Y]. unfold note_gap, note_white. subst g.
      rewrite newlines_cons, newlines_app, (space_no_nl a A). replace (c =? 10) with false by (symmetry; now apply N.eqb_neq).
      cbn [has_space existsb]. rewrite SC. cbn [orb].
      destruct (f_prev s) as [[]|] eqn:PV; cbn [f_indent f_newlines f_space f_fresh f_prev]; rewrite ?PV; f_equal;
        rewrite ?orb_true_r, ?andb_true_r, ?andb_false_r, ?orb_false_r, ?N.add_0_l; auto; now rewrite orb_true_r.
Qed.

Lemma white_next_v k v r : fmt_next (v ++ r) = Some (k, v, r) -> blanks k = false -> v <> [] -> white (next_char (v ++ r)) = false.
Proof. intros F B V. destruct (next_parts _ _ _ _ F) as (_ & _ & _ & X). specialize (X B). destruct v; [easy|exact X]. Qed.

Lemma put_sane s k v : blanks k = false -> sane (snd (put_token s k v)).
Proof. intros B. unfold put_token. cbn [snd]. split; cbn; destruct k; try discriminate; lia. Qed.

Lemma loop_render l its t : cuts l its t -> forall s fuel, sane s -> (length l < fuel)%nat -> fmt_loop fuel l s = Some (render s its).
Proof.
  induction 1 as [g W|g k v r its t W F B V C IH]; intros s fuel SA L.
  - destruct (loop_white (length g) g [] s fuel) as (f' & L' & E); auto; try now rewrite app_nil_r.
    rewrite app_nil_r in E. rewrite E. destruct f'; [cbn in L'; lia|]. reflexivity.
  - destruct (loop_white (length g) g (v ++ r) s fuel) as (f' & L' & E); auto.
    { eapply white_next_v; eauto. }
    rewrite E. destruct f' as [|f']; [lia|]. cbn [fmt_loop render]. rewrite F.
    pose proof (put_sane (note_gap s g) k v B) as SP. destruct (put_token (note_gap s g) k v) as [o s'].
    rewrite (IH s' f'); [|exact SP|rewrite app_length in L'; destruct v; [easy|cbn in L'; lia]].
    destruct k; try discriminate; reflexivity.
Qed.

(** ** The gaps written *)
Definition post (p : option fkind) : N := match p with Some (FLbrace | FRbrace | FSemicolon | FComment) => 1 | _ => 0 end.
Definition is_comma (p : option fkind) : bool := match p with Some FComma => true | _ => false end.
Definition after (i : N) (p : option fkind) : fstate :=
  mkf i (post p) (is_comma p) (match p with None => true | _ => false end) p.
Definition level (i : N) (k : fkind) : N := match k with FLbrace => i + 1 | FRbrace => N.pred i | _ => i end.
Definition lead (k : fkind) : list N := match k with FLbrace => [32] | _ => [] end.
Definition brks (p : option fkind) (k : fkind) (n : N) : N := match k with FRbrace => 1 | _ => N.min 2 (post p + n) end.
(** White space written before a token of kind [k], after one of kind [p], for the gap [g] of the source *)
Definition gap (i : N) (p : option fkind) (g : list N) (k : fkind) : list N :=
  let n := brks p k (newlines g) in
  let i := match k with FRbrace => N.pred i | _ => i end in
  match p with
  | None => spaces (N.to_nat i) ++ lead k
  | Some _ =>
    if 0 <? n then (if 1 <? n then [10; 10] else [10]) ++ spaces (N.to_nat i) ++ lead k
    else (if has_space g || is_comma p then [32] else []) ++ lead k
  end.
Fixpoint regap (i : N) (p : option fkind) (its : list item) : list item :=
  match its with
  | [] => []
  | (g, k, v) :: r => (gap i p g k, k, v) :: regap (level i k) (Some k) r
  end.

Lemma put_gap i p g k v : blanks k = false ->
  put_token (note_gap (after i p) g) k v = (gap i p g k ++ v, after (level i k) (Some k)).
Proof.
  intros B. unfold put_token, note_gap, after, gap, brks. cbn [f_indent f_newlines f_space f_fresh f_prev].
  destruct p as [p|].
  - generalize (post (Some p) + newlines g) as n, (is_comma (Some p)) as q. intros n q. cbn [negb].
    rewrite !andb_true_r, (orb_comm q).
    destruct k; try discriminate B; cbn [lead level]; try destruct (0 <? N.min 2 n); try destruct (1 <? N.min 2 n);
      try destruct (has_space g || q); cbn [app]; rewrite <- ?app_assoc; cbn [app]; rewrite ?app_nil_r; try reflexivity.
  - rewrite !andb_false_r. cbn [orb post is_comma]. generalize (0 + newlines g) as n. intros n.
    destruct k; try discriminate B; cbn [lead level]; try destruct (0 <? N.min 2 n);
      cbn [app]; rewrite <- ?app_assoc; cbn [app]; rewrite ?app_nil_r; reflexivity.
Qed.

Lemma render_join its : forall i p, Forall (fun it => blanks (snd (fst it)) = false) its ->
  render (after i p) its = join (regap i p its) [10].
Proof.
  induction its as [|[[g k] v] its IH]; intros i p F; [reflexivity|]. inversion F as [|? ? B F']; subst. cbn [fst snd] in B.
  cbn [render regap join]. rewrite put_gap by exact B. rewrite IH by exact F'. now rewrite <- app_assoc.
Qed.

Lemma cuts_kinds l its t : cuts l its t -> Forall (fun it => blanks (snd (fst it)) = false) its.
Proof. induction 1; constructor; auto. Qed.

Theorem format_cut l its t : cuts l its t -> format_source l = Some (join (regap 0 None its) [10]).
Proof.
  intros C. unfold format_source. change (mkf 0 0 false true None) with (after 0 None).
  rewrite (loop_render l its t C); [|split; cbn; [lia|easy]|lia]. f_equal. apply render_join. eapply cuts_kinds; eauto.
Qed.
