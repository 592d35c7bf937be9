(** Formatting a formatted text. *)
From Verif Require Import Base LemBase ModelText SpecText LemPunct LemLex ModelFmt SpecFmt LemFmt.
Ltac Zify.zify_post_hook ::= Z.div_mod_to_equations.

Lemma span_stop p a b : all p a -> b = [] \/ p (next_char b) = false -> span p (a ++ b) = (a, b).
Proof.
  intros A B. induction A as [|c a C A IH]; cbn [app span].
  - destruct b as [|c b]; [reflexivity|]. destruct B as [|B]; [discriminate|]. cbn in B |- *. now rewrite B.
  - now rewrite C, IH.
Qed.
Lemma span_stopped p a b : span p (a ++ b) = (a, b) -> all p a /\ (b = [] \/ p (next_char b) = false).
Proof. intros E. pose proof (span_spec p (a ++ b)) as H. rewrite E in H. tauto. Qed.

(** A closed string literal *)
Definition shut (v : list N) : Prop := exists a, v = 34 :: a ++ [34] /\ ~ In 34 a.
(** [r'] continues like [r], or with white space (a newline after a comment) *)
Definition goes_on (k : fkind) (r r' : list N) : Prop :=
  hd_error r' = hd_error r \/ (white (next_char r') = true /\ (k = FComment -> next_char r' = 10)).

Lemma goes_next k r r' : goes_on k r r' -> next_char r' = next_char r \/ white (next_char r') = true.
Proof. intros [E|[W _]]; [|auto]. left. destruct r, r'; try discriminate; [reflexivity|]. now injection E as ->. Qed.

Lemma goes_stop k p r r' : goes_on k r r' -> (forall c, white c = true -> p c = false) -> r = [] \/ p (next_char r) = false ->
  r' = [] \/ p (next_char r') = false.
Proof.
  intros G W R. destruct G as [E|[X _]]; [|right; auto].
  destruct r, r'; try discriminate; auto. injection E as ->. destruct R; [discriminate|auto].
Qed.

Lemma white_in c : white c = true -> In c [32; 9; 13; 10].
Proof. unfold white, is_space. intros E. cbn. lia. Qed.

Ltac in_cases H := apply white_in in H; cbn in H; decompose [or] H; clear H; try contradiction.

Ltac pn := repeat match goal with |- context [peek 0 ?l] => rewrite (peek_next l) | H : context [peek 0 ?l] |- _ => rewrite (peek_next l) in H end.

Lemma next_again k v r r' : fmt_next (v ++ r) = Some (k, v, r) -> blanks k = false -> v <> [] -> (k = FString -> shut v) ->
  goes_on k r r' -> fmt_next (v ++ r') = Some (k, v, r').
Proof.
  intros F B V SH G. destruct v as [|c v]; [easy|]. cbn [app fmt_next] in F |- *.
  destruct (N.eqb_spec c 10) as [->|N10]. { injection F as <- _. discriminate. }
  destruct (is_space c) eqn:SP. { destruct (span _ _). injection F as <- _. discriminate. }
  destruct ((c =? 47) && (peek 0 (v ++ r) =? 47)) eqn:CM.
  { destruct (span _ (v ++ r)) as [a b] eqn:S. injection F as <- -> ->. apply span_stopped in S. destruct S as [A R].
    assert (peek 0 (v ++ r') = peek 0 (v ++ r)) as E.
    { destruct v as [|d v]; [|reflexivity]. cbn [app] in *; pn. destruct R as [->|R]; [cbn in CM; lia|].
      destruct (goes_next _ _ _ G) as [X|X]; [exact X|].
      apply andb_true_iff in CM. destruct CM as [_ CM]. apply N.eqb_eq in CM. rewrite CM in R. discriminate. }
    rewrite E, CM. rewrite (span_stop _ v r'); [reflexivity|exact A|].
    destruct G as [E'|[X Y]]; [|right; rewrite (Y eq_refl); reflexivity].
    destruct r, r'; try discriminate; auto. injection E' as ->. destruct R; [discriminate|auto]. }
  assert (CM' : (c =? 47) && (peek 0 (v ++ r') =? 47) = false).
  { destruct v as [|d v]; [|exact CM]. cbn [app] in *; pn. destruct (goes_next _ _ _ G) as [X|X]; [now rewrite X|].
    in_cases X; rewrite <- ?H, <- ?H0; apply andb_false_r. }
  rewrite CM'. destruct (fpunct c) as [k'|]. { injection F as -> <- _. reflexivity. }
  destruct (N.eqb_spec c 34) as [->|N34].
  { destruct (span _ (v ++ r)) as [a b] eqn:S. assert (k = FString) as -> by (destruct b; now injection F).
    destruct (SH eq_refl) as (q & E & NQ). injection E as ->. rewrite <- app_assoc.
    rewrite (span_stop _ q ([34] ++ r')); [reflexivity| |right; reflexivity].
    apply Forall_forall. intros x I. destruct (N.eqb_spec x 34); [subst; contradiction|reflexivity]. }
  destruct (is_alpha c).
  { destruct (span _ (v ++ r)) as [a b] eqn:S. injection F as <- -> ->. apply span_stopped in S. destruct S as [A R].
    rewrite (span_stop _ v r'); [reflexivity|exact A|]. eapply goes_stop; eauto. intros x W. in_cases W; subst; reflexivity. }
  destruct (is_digit c || ((c =? 45) && is_digit (peek 0 (v ++ r)))) eqn:NU.
  { destruct (span _ (v ++ r)) as [a b] eqn:S. injection F as <- -> ->. apply span_stopped in S. destruct S as [A R].
    assert (E : is_digit c || ((c =? 45) && is_digit (peek 0 (v ++ r'))) = true).
    { destruct v as [|d v]; [|exact NU]. cbn [app] in *; pn.
      destruct (is_digit c); [reflexivity|]. cbn [orb] in *. apply andb_true_iff in NU. destruct NU as [_ NU].
      destruct R as [->|R]; [discriminate|]. exfalso. revert R. unfold is_num. now rewrite NU. }
    rewrite E, (span_stop _ v r'); [reflexivity|exact A|]. eapply goes_stop; eauto. intros x W. in_cases W; subst; reflexivity. }
  injection F as <- <- _. cbn [app] in *; pn.
  assert (E : is_digit c || ((c =? 45) && is_digit (next_char r')) = false).
  { apply orb_false_iff in NU. destruct NU as [-> NU]. cbn [orb]. destruct (goes_next _ _ _ G) as [X|X]; [now rewrite X|].
    in_cases X; rewrite <- ?H, <- ?H0; apply andb_false_r. }
  now rewrite E.
Qed.

(** ** Gap for gap *)
Definition loose (k : option fkind) : bool :=
  match k with Some (FLbrace | FRbrace | FSemicolon | FComma | FComment) | None => true | _ => false end.
Definition braces (k : fkind) : bool := match k with FLbrace | FRbrace => true | _ => false end.
(** [like p its its']: same tokens; gaps of [its'] are empty only where those of [its] are, and new gaps stand next to a
    brace or after a semicolon, comma or comment only; after a comment the gap starts with a newline *)
Inductive like : option fkind -> list item -> list item -> Prop :=
| like_nil p : like p [] []
| like_cons p g g' k v its its' : all white g' -> (p <> None -> g' = [] -> g = []) ->
    (g = [] -> g' = [] \/ loose p = true \/ braces k = true) ->
    (p = Some FComment -> next_char g' = 10) -> like (Some k) its its' -> like p ((g, k, v) :: its) ((g', k, v) :: its').

Lemma all_spaces n : all white (spaces n).
Proof. induction n; [constructor|]. cbn [spaces]. repeat (constructor; [reflexivity|]). exact IHn. Qed.

Lemma newlines_nil g : newlines g = 0 -> has_space g = false -> all white g -> g = [].
Proof.
  destruct g as [|c g]; [reflexivity|]. intros N S W. inversion W as [|? ? X]; subst. cbn [has_space existsb] in S.
  rewrite newlines_cons in N. unfold white in X. apply orb_false_iff in S. destruct S as [S _]. rewrite S in X. cbn in X.
  rewrite X in N. lia.
Qed.

Lemma like_gap i p g k : all white g -> 
  all white (gap i p g k) /\ (p <> None -> gap i p g k = [] -> g = []) /\
  (g = [] -> gap i p g k = [] \/ loose p = true \/ braces k = true) /\ (p = Some FComment -> next_char (gap i p g k) = 10).
Proof.
  intros W. unfold gap. destruct p as [p|].
  - repeat split.
    + destruct (0 <? _); [destruct (1 <? _)|destruct (_ || _)]; repeat (apply Forall_app; split); try apply all_spaces;
        try (destruct k; repeat constructor); repeat constructor.
    + intros _. destruct (N.ltb_spec 0 (brks (Some p) k (newlines g))) as [|Z]; [destruct (1 <? _); discriminate|].
      destruct (has_space g) eqn:HS; [discriminate|]. intros _. apply newlines_nil; auto.
      unfold brks in Z. destruct k; lia.
    + intros ->. unfold brks. cbn [newlines filter has_space existsb orb]. change (newlines []) with 0.
      destruct p; cbn [loose]; auto; destruct k; cbn [braces]; auto; left; reflexivity.
    + intros [= ->]. unfold brks. cbn [post]. replace (N.ltb 0 _) with true by (destruct k; symmetry; apply N.ltb_lt; lia).
      destruct (1 <? _); reflexivity.
  - repeat split; try easy.
    + apply Forall_app. split; [apply all_spaces|]. destruct k; repeat constructor.
    + intros _. cbn [loose]. auto.
Qed.

Lemma like_regap l its t : cuts l its t -> forall i p, like p its (regap i p its).
Proof.
  induction 1 as [|g k v r its t W F B V C IH]; intros i p; [constructor|]. cbn [regap].
  destruct (like_gap i p g k W) as (A1 & A2 & A3 & A4). constructor; auto.
Qed.

(** What follows a token in the formatted text *)
Lemma like_next k its its' t : like (Some k) its its' -> Forall (fun it => snd it <> []) its -> all white t ->
  goes_on k (join its t) (join its' [10]).
Proof.
  remember (Some k) as p eqn:EP. intros L V W. destruct L as [p|p g g' k' v its its' W' E1 E2 E3 L]; subst p.
  - right. split; [reflexivity|auto].
  - inversion V as [|? ? V1 V2]; subst. cbn [snd] in V1. cbn [join]. destruct g' as [|c g'].
    + rewrite (E1 ltac:(easy) eq_refl). left. destruct v; [easy|reflexivity].
    + right. inversion W'; subst. split; [assumption|]. cbn. intros ->. now apply E3.
Qed.

Lemma cuts_v l its t : cuts l its t -> Forall (fun it : item => snd it <> []) its.
Proof. induction 1; constructor; auto. Qed.
Lemma cuts_t l its t : cuts l its t -> all white t.
Proof. induction 1; auto. Qed.

Definition shut_all (its : list item) : Prop := Forall (fun it => snd (fst it) = FString -> shut (snd it)) its.

Lemma cuts_like l its t : cuts l its t -> forall p its', like p its its' -> shut_all its -> cuts (join its' [10]) its' [10].
Proof.
  induction 1 as [g W|g k v r its t W F B V C IH]; intros p its' L SA.
  - inversion L; subst. repeat constructor.
  - inversion L as [|? ? g' ? ? ? its2 W' E1 E2 E3 L']; subst. inversion SA as [|? ? S1 S2]; subst. cbn [fst snd] in S1.
    cbn [join]. constructor; auto; [|apply (IH _ _ L' S2)]. apply (next_again k v r); auto.
    rewrite (cuts_join _ _ _ C). apply like_next; auto; [eapply cuts_v; eauto|eapply cuts_t; eauto].
Qed.

Lemma next_shut v r : fmt_next (v ++ r) = Some (FString, v, r) -> closed Code (v ++ r) = true -> shut v.
Proof.
  destruct v as [|c v]; [destruct r as [|c r]; [discriminate|]|].
  { intros F. apply next_parts in F. destruct F as (_ & X & _). now destruct X. }
  cbn [app fmt_next closed]. destruct (c =? 10); [discriminate|]. destruct (is_space c); [now destruct (span _ _)|].
  rewrite !peek_next. destruct (_ && _); [now destruct (span _ _)|].
  destruct (fpunct c) as [k|] eqn:FP.
  { intros [= -> _ _]. exfalso. revert FP. clear. unfold fpunct. destruct c as [|c]; [discriminate|].
    repeat (destruct c as [c|c|]; try discriminate). }
  destruct (N.eqb_spec c 34) as [->|]; [|destruct (is_alpha c); [now destruct (span _ _)|destruct (_ || _); [now destruct (span _ _)|discriminate]]].
  pose proof (span_spec (fun x => negb (x =? 34)) (v ++ r)) as S. destruct (span _ (v ++ r)) as [a b]. destruct S as (E & A & R).
  destruct b as [|q b].
  - intros _ Q. exfalso. rewrite app_nil_r in E. rewrite E in Q. clear - A Q. induction A as [|x a X A IH]; [discriminate|].
    cbn [closed] in Q. destruct (x =? 34); [discriminate|auto].
  - intros [= E1 _] _. destruct R as [|R]; [discriminate|]. cbn in R. assert (q = 34) as -> by lia. exists a. split; [now subst|].
    intros I. apply (proj1 (Forall_forall _ _) A) in I. discriminate.
Qed.

Lemma closed_white g r : all white g -> closed Code (g ++ r) = closed Code r.
Proof.
  induction 1 as [|c g W G IH]; [reflexivity|]. cbn [app closed]. in_cases W; subst; cbn; exact IH.
Qed.


Lemma closed_line a b : all (fun x => negb (x =? 10)) a -> b = [] \/ next_char b = 10 -> closed Line (a ++ b) = true -> closed Code b = true.
Proof.
  intros A B. induction A as [|c a C A IH]; cbn [app].
  - destruct B as [-> | B]; [auto|]. destruct b as [|c b]; [auto|]. cbn in B. subst c. cbn. auto.
  - cbn [closed]. destruct (c =? 10); [discriminate|auto].
Qed.
Lemma closed_quoted a b : ~ In 34 a -> closed Quoted (a ++ 34 :: b) = closed Code b.
Proof.
  induction a as [|c a IH]; intros A; cbn [app closed]; [reflexivity|].
  destruct (N.eqb_spec c 34); [exfalso; apply A; left; auto|]. apply IH. intros I. apply A. now right.
Qed.
Lemma closed_plain p a b : (forall c, p c = true -> c <> 34 /\ c <> 47) -> all p a -> closed Code (a ++ b) = closed Code b.
Proof.
  intros P A. induction A as [|c a C A IH]; [reflexivity|]. destruct (P c C). cbn [app closed].
  destruct (N.eqb_spec c 34); [easy|]. destruct (N.eqb_spec c 47); [easy|]. cbn [andb]. exact IH.
Qed.

Lemma next_closed k v r : fmt_next (v ++ r) = Some (k, v, r) -> v <> [] -> closed Code (v ++ r) = true -> closed Code r = true.
Proof.
  intros F V Q. assert (SH : k = FString -> shut v) by (intros ->; now apply (next_shut v r)).
  destruct v as [|c v]; [easy|]. cbn [app fmt_next] in F. cbn [app] in Q.
  destruct (N.eqb_spec c 10) as [->|N10]. { injection F as _ <-. exact Q. }
  destruct (is_space c) eqn:SP.
  { destruct (span is_space (v ++ r)) as [a b] eqn:S. injection F as _ -> ->. apply span_stopped in S. destruct S as [A _].
    assert (A' : all is_space (c :: v)) by (now constructor).
    change (closed Code ((c :: v) ++ r) = true) in Q. rewrite (closed_plain is_space) in Q; auto.
    intros x X. unfold is_space in X. lia. }
  cbn [closed] in Q. rewrite peek_next in F. destruct ((c =? 47) && (next_char (v ++ r) =? 47)) eqn:CM.
  { destruct (span _ (v ++ r)) as [a b] eqn:S. injection F as _ -> ->. apply span_stopped in S. destruct S as [A R].
    destruct (N.eqb_spec c 34) as [->|]; [discriminate|]. apply (closed_line v r); auto.
    destruct R as [R|R]; [auto|]. right. lia. }
  destruct (fpunct c) as [k'|] eqn:FP. { injection F as _ <-. destruct (N.eqb_spec c 34) as [->|]; [discriminate|exact Q]. }
  destruct (N.eqb_spec c 34) as [->|N34].
  { destruct (span _ (v ++ r)) as [a b] eqn:S. assert (k = FString) as -> by (destruct b; now injection F).
    destruct (SH eq_refl) as (q & E & NQ). injection E as ->. rewrite <- app_assoc in Q. cbn [app] in Q. now rewrite closed_quoted in Q. }
  destruct (is_alpha c) eqn:AL.
  { destruct (span _ (v ++ r)) as [a b] eqn:S. injection F as _ -> ->. apply span_stopped in S. destruct S as [A _].
    rewrite (closed_plain is_alnum) in Q; auto. intros x X. unfold is_alnum, is_alpha, is_digit in X. lia. }
  destruct (_ || _).
  { destruct (span _ (v ++ r)) as [a b] eqn:S. injection F as _ -> ->. apply span_stopped in S. destruct S as [A _].
    rewrite (closed_plain is_num) in Q; auto. intros x X. unfold is_num, is_digit in X. lia. }
  injection F as _ <-. exact Q.
Qed.

Lemma closed_shut l its t : cuts l its t -> closed Code l = true -> shut_all its.
Proof.
  induction 1 as [g W|g k v r its t W F B V C IH]; intros Q; constructor.
  - cbn [fst snd]. intros ->. rewrite closed_white in Q by exact W. now apply next_shut in F.
  - rewrite closed_white in Q by exact W. apply IH. now apply next_closed in F.
Qed.

(** ** Two passes *)
Lemma newlines_gap i p g k : p <> None -> newlines (gap i p g k) = brks p k (newlines g).
Proof.
  intros P. destruct p as [p|]; [|easy]. unfold gap.
  assert (S : forall n, newlines (spaces n) = 0) by (intros n; apply space_no_nl; induction n; cbn [spaces]; repeat constructor; auto).
  assert (L : newlines (lead k) = 0) by (destruct k; reflexivity).
  destruct (N.ltb_spec 0 (brks (Some p) k (newlines g))).
  - rewrite !newlines_app, S, L. assert (brks (Some p) k (newlines g) <= 2) by (unfold brks; destruct k; lia).
    destruct (N.ltb_spec 1 (brks (Some p) k (newlines g))); [change (newlines [10;10]) with 2|change (newlines [10]) with 1]; lia.
  - rewrite newlines_app, L. destruct (_ || _); [change (newlines [32]) with 0|change (newlines []) with 0]; lia.
Qed.

Lemma gap_thrice i p g k : blanks k = false -> gap i p (gap i p (gap i p g k) k) k = gap i p (gap i p g k) k.
Proof.
  intros B. destruct p as [p|]; [|reflexivity].
  assert (N1 := newlines_gap i (Some p) g k ltac:(easy)).
  assert (N2 := newlines_gap i (Some p) (gap i (Some p) g k) k ltac:(easy)). rewrite N1 in N2.
  etransitivity; [reflexivity|]. unfold gap at 1. etransitivity; [|symmetry; unfold gap at 1; reflexivity]. rewrite N2, N1.
  assert (E : brks (Some p) k (brks (Some p) k (brks (Some p) k (newlines g))) = brks (Some p) k (brks (Some p) k (newlines g))).
  { unfold brks. assert (post (Some p) <= 1) by (destruct p; cbn; lia). destruct k; lia. }
  rewrite E. destruct (N.ltb_spec 0 (brks (Some p) k (brks (Some p) k (newlines g)))) as [|Z]; [reflexivity|].
  f_equal. assert (Z' : brks (Some p) k (newlines g) = 0) by (unfold brks in *; destruct k; lia).
  assert (S1 : has_space (gap i (Some p) g k) = (has_space g || is_comma (Some p)) || braces k).
  { unfold gap. rewrite Z'. change (0 <? 0) with false. cbv iota. rewrite has_space_app.
    destruct (_ || is_comma _); destruct k; try reflexivity; discriminate Z'. }
  assert (S2 : has_space (gap i (Some p) (gap i (Some p) g k) k) = (has_space (gap i (Some p) g k) || is_comma (Some p)) || braces k).
  { unfold gap at 1. rewrite N1, Z'. replace (0 <? brks (Some p) k 0) with false by (symmetry; apply N.ltb_ge; rewrite Z' in Z; exact Z).
    rewrite has_space_app. clear S1. destruct (_ || is_comma _); destruct k; try reflexivity; discriminate Z'. }
  rewrite S2, S1. destruct (has_space g), (is_comma (Some p)), (braces k); reflexivity.
Qed.

Lemma regap_thrice its : forall i p, Forall (fun it => blanks (snd (fst it)) = false) its ->
  regap i p (regap i p (regap i p its)) = regap i p (regap i p its).
Proof.
  induction its as [|[[g k] v] its IH]; intros i p F; [reflexivity|]. inversion F as [|? ? B F']; subst. cbn [regap].
  rewrite gap_thrice by exact B. now rewrite IH.
Qed.

Lemma regap_kinds its : forall i p, Forall (fun it => blanks (snd (fst it)) = false) its ->
  Forall (fun it => blanks (snd (fst it)) = false) (regap i p its).
Proof. induction its as [|[[g k] v] its IH]; intros i p F; [constructor|]. inversion F; subst. cbn [regap]. constructor; auto. Qed.
Lemma regap_shut its : forall i p, shut_all its -> shut_all (regap i p its).
Proof. induction its as [|[[g k] v] its IH]; intros i p F; [constructor|]. inversion F; subst. cbn [regap]. constructor; auto. now apply IH. Qed.

Theorem format_twice src : closed Code src = true ->
  exists o1 o2, format_source src = Some o1 /\ format_source o1 = Some o2 /\ format_source o2 = Some o2.
Proof.
  intros Q. destruct (cuts_exists (length src) src (Nat.le_refl _)) as (its & t & C).
  pose proof (closed_shut _ _ _ C Q) as SA.
  pose proof (cuts_like _ _ _ C None _ (like_regap _ _ _ C 0 None) SA) as C1.
  pose proof (regap_shut _ 0 None SA) as SA1.
  pose proof (cuts_like _ _ _ C1 None _ (like_regap _ _ _ C1 0 None) SA1) as C2.
  exists (join (regap 0 None its) [10]), (join (regap 0 None (regap 0 None its)) [10]).
  split; [exact (format_cut _ _ _ C)|]. split; [exact (format_cut _ _ _ C1)|].
  rewrite (format_cut _ _ _ C2). now rewrite regap_thrice by exact (cuts_kinds _ _ _ C).
Qed.
