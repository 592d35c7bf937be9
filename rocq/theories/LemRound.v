(** What one end sends, the other end receives. *)
From Coq Require Import ZifyBool ZifyNat ZifyN.
From Verif Require Import Base SpecBytes LemBase ModelWord LemWord ModelFloat ModelTrans ModelVM SpecVM LemRun
  ModelText SpecText ModelParse SpecParse SpecNames SpecPacket SpecMessage LemMessage SpecSource LemSource LemCompile LemMeaning.
Ltac Zify.zify_post_hook ::= Z.div_mod_to_equations.

Lemma skipn_skip {A} (a b : nat) (l : list A) : skipn a (skipn b l) = skipn (a + b) l.
Proof. revert l. induction b as [|b IH]; intros l; [now rewrite Nat.add_0_r|]. rewrite Nat.add_succ_r. destruct l as [|x l]; [now rewrite !skipn_nil|]. cbn [skipn]. apply IH. Qed.
Section Round.
  Context (id : list N -> N) (s : store).
  Definition agree (known : list (list N)) (t : store) : Prop := forall n, In n known -> t (id n) = s (id n).
  Lemma agree_kept known t n : agree known t -> agree (n :: known) (kept t (id n) (s (id n))).
  Proof.
    intros A j I. unfold kept. destruct (N.eqb_spec (id j) (id n)) as [->|NE]; [reflexivity|]. destruct I as [<-|I]; [congruence|]. now apply A.
  Qed.
  Lemma agree_received known fs : forall t, agree known t -> agree known (received id s fs t).
  Proof.
    induction fs as [|f fs IH]; intros t A; [exact A|]. apply IH. intros j I. apply (agree_kept known t (leaf_name f) A). now right.
  Qed.
  Lemma condition_same c t : incl (names c) (names c) -> (forall n, In n (names c) -> t (id n) = s (id n)) ->
    condition receiver id c t = (t, snd (condition sender id c s)) /\ fst (condition sender id c s) = s.
  Proof.
    intros _. induction c as [v| | |n|o a IHa b IHb|o a IHa| |]; cbn [names condition]; intros A; try (split; reflexivity).
    - cbn [sender receiver ask rq_how rq_key rq_pl cvar]. rewrite (A n) by now left. split; reflexivity.
    - destruct IHa as (Ea & Fa); [intros n I; apply A; apply in_or_app; now left|]. destruct IHb as (Eb & Fb); [intros n I; apply A; apply in_or_app; now right|].
      rewrite Ea. destruct (condition sender id a s) as [s1 [x|e|]]; cbn [fst snd] in *; subst s1; [|split; reflexivity|split; reflexivity].
      rewrite Eb. destruct (condition sender id b s) as [s2 [y|e|]]; cbn [fst snd] in *; subst s2; [|split; reflexivity|split; reflexivity].
      destruct (ibin_val o x y); split; reflexivity.
    - destruct IHa as (Ea & Fa); [exact A|]. rewrite Ea. destruct (condition sender id a s) as [s1 [x|e|]]; cbn [fst snd] in *; subst s1; [|split; reflexivity|split; reflexivity].
      destruct (iun_val o x); split; reflexivity.
  Qed.

  Lemma item_round f x x' s' : field_meaning sender id Enc f x s = Goes x' s' -> proper id s (Plain f) ->
    s' = s /\ exists bs, passed x' = passed x ++ bs /\ ahead x' = skipn (length bs) (ahead x) /\ (length bs <= length (ahead x))%nat /\
    forall y t rest, order y = order x -> ahead y = bs ++ rest ->
      field_meaning receiver id Dec f y t = Goes {| order := order x'; passed := passed y ++ bs; ahead := rest |} (kept t (id (i_name f)) (s (id (i_name f)))).
  Proof.
    intros E (PV & PC). unfold field_meaning in *. cbv zeta in *. set (ty := i_type f) in *. set (n := N.to_nat (width ty)) in *. set (k := id (i_name f)) in *. set (o := if i_big f then BE else order x) in *.
    destruct (N.ltb_spec (lenN (ahead x)) (width ty)) as [LT|GE]; [discriminate|].
    assert (LB : forall v, length (bytes_of o n v) = n) by (intros v; pose proof (lenN_bytes_of o n v) as L; unfold lenN in L; lia).
    assert (VB : forall v, v < 2 ^ (8 * width ty) -> val_of o (bytes_of o n v) = v).
    { intros v L. rewrite val_bytes. apply N.mod_small. unfold n. rewrite N2Nat.id. change 256 with (2 ^ 8). rewrite <- N.pow_mul_r. exact L. }
    assert (FS : forall v rest, firstn n (bytes_of o n v ++ rest) = bytes_of o n v).
    { intros v rest. pose proof (firstn_app (length (bytes_of o n v)) (bytes_of o n v) rest) as F. rewrite firstn_all, Nat.sub_diag, app_nil_r in F. now rewrite LB in F. }
    assert (SK : forall v rest, skipn n (bytes_of o n v ++ rest) = rest).
    { intros v rest. pose proof (skipn_app (length (bytes_of o n v)) (bytes_of o n v) rest) as F. rewrite skipn_all, Nat.sub_diag in F. now rewrite LB in F. }
    assert (NS : forall v rest, lenN (bytes_of o n v ++ rest) <? width ty = false) by (intros v rest; apply N.ltb_ge; rewrite lenN_app, lenN_bytes_of; lia).
    destruct (i_const f) as [c|] eqn:EC.
    - specialize (PC c eq_refl). rewrite PC in PV. destruct (admitted f (pattern ty c)) eqn:AD; [|discriminate]. injection E as <- <-. split; [reflexivity|]. exists (bytes_of o n (pattern ty c)).
      cbn [passed ahead order]. rewrite LB. split; [reflexivity|]. split; [reflexivity|]. split; [unfold lenN in GE; lia|]. intros y t rest EO EA. rewrite EO, EA. fold o. rewrite NS, FS, SK, VB by exact PV.
      rewrite N.eqb_refl. unfold receiver. cbn [ask rq_how rq_pl rq_key cvar r_ok]. rewrite AD, PC. reflexivity.
    - unfold sender in E. cbn [value_call ask rq_key answering r_ok negb] in E.
      assert (AV : answer (width ty) 0 (answering (s k)) = s k) by (unfold answer, answering; cbn [r_val]; apply N.mod_small; exact PV).
      rewrite AV in E. destruct (truth_value ty (s k)) eqn:TV; [|discriminate]. destruct (admitted f (s k)) eqn:AD; [|discriminate]. injection E as <- <-.
      split; [reflexivity|]. exists (bytes_of o n (s k)). cbn [passed ahead order]. rewrite LB. split; [reflexivity|]. split; [reflexivity|]. split; [unfold lenN in GE; lia|].
      intros y t rest EO EA. rewrite EO, EA. fold o. rewrite NS, FS, SK, VB by exact PV. rewrite TV. unfold receiver. cbn [value_call ask rq_how rq_pl rq_key cvar r_ok]. rewrite AD. reflexivity.
  Qed.
  Lemma computed_round c x x' s' : computed_meaning sender id Enc c x s = Goes x' s' -> proper id s (Computed c) ->
    s' = s /\ exists bs, passed x' = passed x ++ bs /\ ahead x' = skipn (length bs) (ahead x) /\ (length bs <= length (ahead x))%nat /\
    forall y t rest, order y = order x -> ahead y = bs ++ rest -> (forall n, In n (names (c_expr c)) -> t (id n) = s (id n)) ->
      computed_meaning receiver id Dec c y t = Goes {| order := order x'; passed := passed y ++ bs; ahead := rest |} (kept t (id (c_name c)) (s (id (c_name c)))).
  Proof.
    intros E (PV & PC). unfold computed_meaning in *. cbv zeta in *. set (ty := c_type c) in *. set (n := N.to_nat (width ty)) in *. set (k := id (c_name c)) in *. set (o := if c_big c then BE else order x) in *.
    destruct (condition_same (c_expr c) s (incl_refl _) (fun n _ => eq_refl)) as (_ & FS). destruct (condition sender id (c_expr c) s) as [s1 cv] eqn:ES. cbn [fst snd] in FS, PC. subst s1 cv.
    unfold sender in E. cbn [ask rq_key answering r_ok negb] in E. destruct (N.ltb_spec (lenN (ahead x)) (width ty)) as [LT|GE]; [discriminate|]. injection E as <- <-. split; [reflexivity|].
    assert (LB : length (bytes_of o n (s k)) = n) by (pose proof (lenN_bytes_of o n (s k)) as L; unfold lenN in L; lia).
    assert (VB : val_of o (bytes_of o n (s k)) = s k).
    { rewrite val_bytes. apply N.mod_small. unfold n. rewrite N2Nat.id. change 256 with (2 ^ 8). rewrite <- N.pow_mul_r. exact PV. }
    exists (bytes_of o n (s k)). cbn [passed ahead order]. rewrite LB. split; [reflexivity|]. split; [reflexivity|]. split; [unfold lenN in GE; lia|]. intros y t rest EO EA A.
    destruct (condition_same (c_expr c) t (incl_refl _) A) as (ER & _). rewrite ER, ES. cbn [snd]. unfold receiver at 1. cbn [ask rq_how rq_pl rq_key cvar r_ok negb]. rewrite EO, EA. fold o.
    replace (lenN (bytes_of o n (s k) ++ rest) <? width ty) with false by (symmetry; apply N.ltb_ge; rewrite lenN_app, lenN_bytes_of; lia).
    assert (FS : firstn n (bytes_of o n (s k) ++ rest) = bytes_of o n (s k)).
    { pose proof (firstn_app (length (bytes_of o n (s k))) (bytes_of o n (s k)) rest) as F. rewrite firstn_all, Nat.sub_diag, app_nil_r in F. now rewrite LB in F. }
    assert (SK : skipn n (bytes_of o n (s k) ++ rest) = rest).
    { pose proof (skipn_app (length (bytes_of o n (s k))) (bytes_of o n (s k)) rest) as F. rewrite skipn_all, Nat.sub_diag in F. now rewrite LB in F. }
    rewrite FS, SK, VB, N.eqb_refl. reflexivity.
  Qed.
  Lemma leaf_round f x x' s' : leaf_meaning sender id Enc f x s = Goes x' s' -> proper id s f ->
    s' = s /\ exists bs, passed x' = passed x ++ bs /\ ahead x' = skipn (length bs) (ahead x) /\ (length bs <= length (ahead x))%nat /\
    forall y t rest known, order y = order x -> ahead y = bs ++ rest -> match f with Plain _ => True | Computed c => incl (names (c_expr c)) known end -> agree known t ->
      leaf_meaning receiver id Dec f y t = Goes {| order := order x'; passed := passed y ++ bs; ahead := rest |} (kept t (id (leaf_name f)) (s (id (leaf_name f)))).
  Proof.
    destruct f as [f|c]; intros E P.
    - destruct (item_round f x x' s' E P) as (A & bs & B & C & D & R). split; [exact A|]. exists bs. split; [exact B|]. split; [exact C|]. split; [exact D|]. intros. now apply R.
    - destruct (computed_round c x x' s' E P) as (A & bs & B & C & D & R). split; [exact A|]. exists bs. split; [exact B|]. split; [exact C|]. split; [exact D|].
      intros y t rest known EO EA I AG. apply R; auto.
  Qed.
  (** What a part of the program sends, it receives *)
  Definition both known (enc : ending) (dec : place -> store -> ending) (fs : list leaf) (x : place) : Prop := forall x' s', enc = Goes x' s' ->
    s' = s /\ exists bs, passed x' = passed x ++ bs /\ ahead x' = skipn (length bs) (ahead x) /\ (length bs <= length (ahead x))%nat /\
    forall y t rest, order y = order x -> ahead y = bs ++ rest -> agree known t ->
      dec y t = Goes {| order := order x'; passed := passed y ++ bs; ahead := rest |} (received id s fs t).
  Lemma both_then known enc k dec kd fs fs2 x : both known enc dec fs x -> (forall x1, both known (k x1 s) kd fs2 x1) ->
    both known (andthen enc k) (fun y t => andthen (dec y t) kd) (fs ++ fs2) x.
  Proof.
    intros B K x' s' E. destruct enc as [x1 s1|er z s1|]; cbn [andthen] in E; try discriminate. destruct (B x1 s1 eq_refl) as (-> & bs & P1 & A1 & L1 & D1).
    destruct (K x1 x' s' E) as (-> & bs2 & P2 & A2 & L2 & D2). split; [reflexivity|]. exists (bs ++ bs2).
    rewrite P2, P1, app_assoc. split; [reflexivity|]. rewrite A1 in A2, L2. rewrite skipn_length in L2. rewrite app_length. split.
    { rewrite A2. rewrite Nat.add_comm. apply skipn_skip. } split; [lia|].
    intros y t rest EO EA A. rewrite <- app_assoc in EA. rewrite (D1 y t (bs2 ++ rest) EO EA A). cbn [andthen].
    rewrite (D2 {| order := order x1; passed := passed y ++ bs; ahead := bs2 ++ rest |} _ rest eq_refl eq_refl (agree_received known _ t A)).
    cbn [passed]. rewrite app_assoc. unfold received. rewrite fold_left_app. reflexivity.
  Qed.
  Lemma progs_round :
    (forall p x known, Forall (proper id s) (chosen id s p) -> backward known p -> both known (meaning sender id Enc p x s) (meaning receiver id Dec p) (chosen id s p) x) /\
    (forall cs v x known enc dec fs, Forall (proper id s) (taken id s cs v fs) -> backwards known cs -> (Forall (proper id s) fs -> both known enc dec fs x) ->
      both known (selected sender id Enc cs v enc x s) (fun y t => selected receiver id Dec cs v (dec y t) y t) (taken id s cs v fs) x).
  Proof.
    apply prog_cases_ind.
    - intros x known _ _ x' s' E. injection E as <- <-. split; [reflexivity|]. exists []. rewrite app_nil_r. split; [reflexivity|]. split; [reflexivity|]. split; [cbn; lia|].
      intros y t rest EO EA _. cbn [meaning chosen received fold_left app] in *. rewrite <- EO, <- EA, app_nil_r. now destruct y.
    - intros f r IH x known F (BF & B) x' s' E. cbn [meaning chosen] in *. destruct (leaf_meaning sender id Enc f x s) as [x1 s1|er z s1|] eqn:EF; cbn [andthen] in E; try discriminate.
      destruct (leaf_round f x x1 s1 EF (Forall_inv F)) as (-> & bs & P1 & A1 & L1 & D1).
      destruct (IH x1 _ (Forall_inv_tail F) B x' s' E) as (-> & bs2 & P2 & A2 & L2 & D2). split; [reflexivity|]. exists (bs ++ bs2).
      rewrite P2, P1, app_assoc. split; [reflexivity|]. rewrite A1 in A2, L2. rewrite skipn_length in L2. rewrite app_length. split.
      { rewrite A2. rewrite Nat.add_comm. apply skipn_skip. } split; [lia|].
      intros y t rest EO EA A. rewrite <- app_assoc in EA. rewrite (D1 y t (bs2 ++ rest) known EO EA BF A). cbn [andthen].
      rewrite (D2 {| order := order x1; passed := passed y ++ bs; ahead := bs2 ++ rest |} (kept t (id (leaf_name f)) (s (id (leaf_name f)))) rest eq_refl eq_refl (agree_kept known t (leaf_name f) A)).
      cbn [passed received fold_left]. rewrite app_assoc. reflexivity.
    - intros c tp IHt e IHe r IHr x known F (BC & BT & BE & BR). cbn [meaning chosen] in *.
      destruct (condition_same c s (incl_refl _) (fun n _ => eq_refl)) as (_ & FS). destruct (condition sender id c s) as [s1 cv] eqn:ES. cbn [fst snd] in FS, F |- *. subst s1.
      destruct cv as [v|er|]; try (intros ? ? ?; discriminate). apply Forall_app in F as (F1 & F2).
      assert (R : both known (andthen (if v =? 0 then meaning sender id Enc e x s else meaning sender id Enc tp x s) (meaning sender id Enc r))
        (fun y t => andthen (if v =? 0 then meaning receiver id Dec e y t else meaning receiver id Dec tp y t) (meaning receiver id Dec r)) ((if v =? 0 then chosen id s e else chosen id s tp) ++ chosen id s r) x).
      { apply both_then; [|intros x1; now apply IHr]. destruct (v =? 0); [now apply IHe|now apply IHt]. }
      intros x' s' E. destruct (R x' s' E) as (A & bs & B & C & D & X). split; [exact A|]. exists bs. split; [exact B|]. split; [exact C|]. split; [exact D|]. intros y t rest EO EA AG.
      destruct (condition_same c t (incl_refl _)) as (ER & _). { intros n I. apply AG. now apply BC. }
      rewrite ES in ER. cbn [snd] in ER. rewrite ER. now apply X.
    - intros n cs IC r IH x known F (BN & BC & BR). change (chosen id s (Switch n cs r)) with (taken id s cs (s (id n) mod 2 ^ 64) [] ++ chosen id s r) in *. apply Forall_app in F as (F1 & F2).
      assert (AV : answer 8 0 (answering (s (id n))) = s (id n) mod 2 ^ 64) by reflexivity. set (v := s (id n) mod 2 ^ 64) in *.
      assert (R : both known (andthen (selected sender id Enc cs v (Goes x s) x s) (meaning sender id Enc r))
        (fun y t => andthen (selected receiver id Dec cs v (Goes y t) y t) (meaning receiver id Dec r)) (taken id s cs v [] ++ chosen id s r) x).
      { apply both_then; [|intros x1; now apply IH]. apply (IC v x known (Goes x s) Goes []); auto. intros _ x' s' E. injection E as <- <-. split; [reflexivity|]. exists []. rewrite app_nil_r.
        split; [reflexivity|]. split; [reflexivity|]. split; [cbn; lia|]. intros y t rest EO EA _. cbn [received fold_left app] in *. rewrite <- EO, <- EA, app_nil_r. now destruct y. }
      intros x' s' E. rewrite meaning_switch in E. unfold sender at 1 in E. cbn [ask rq_key r_ok answering] in E. fold (answering (s (id n))) in E. rewrite AV in E.
      destruct (R x' s' E) as (A & bs & B & C & D & X). split; [exact A|]. exists bs. split; [exact B|]. split; [exact C|]. split; [exact D|]. intros y t rest EO EA AG.
      rewrite meaning_switch. unfold receiver at 1. cbn [ask rq_how rq_key r_ok answering]. fold (answering (t (id n))). rewrite (AG n BN), AV. now apply X.
    - intros v x known enc dec fs F _ B. exact (B F).
    - intros l b IB more IH v x known enc dec fs F (BB & BM) B. 
      assert (ES : selected sender id Enc (Case l b more) v enc x s = match l with Some z => if v =? pattern 0x13 z then meaning sender id Enc b x s else selected sender id Enc more v enc x s
        | None => selected sender id Enc more v (meaning sender id Enc b x s) x s end) by apply selected_case. rewrite ES. clear ES.
      destruct l as [z|].
      + change (taken id s (Case (Some z) b more) v fs) with (if v =? pattern 19 z then chosen id s b else taken id s more v fs) in *.
        intros x' s' E. assert (R : both known (if v =? pattern 19 z then meaning sender id Enc b x s else selected sender id Enc more v enc x s)
          (fun y t => if v =? pattern 19 z then meaning receiver id Dec b y t else selected receiver id Dec more v (dec y t) y t) (if v =? pattern 19 z then chosen id s b else taken id s more v fs) x).
        { destruct (v =? pattern 19 z); [now apply IB|]. now apply IH. }
        destruct (R x' s' E) as (A & bs & B1 & C & D & X). split; [exact A|]. exists bs. split; [exact B1|]. split; [exact C|]. split; [exact D|]. intros y t rest EO EA AG. rewrite selected_case. now apply X.
      + change (taken id s (Case None b more) v fs) with (taken id s more v (chosen id s b)) in *.
        assert (R : both known (selected sender id Enc more v (meaning sender id Enc b x s) x s) (fun y t => selected receiver id Dec more v (meaning receiver id Dec b y t) y t) (taken id s more v (chosen id s b)) x).
        { apply IH; auto. }
        intros x' s' E. destruct (R x' s' E) as (A & bs & B1 & C & D & X). split; [exact A|]. exists bs. split; [exact B1|]. split; [exact C|]. split; [exact D|]. intros y t rest EO EA AG. rewrite selected_case. now apply X.
  Qed.
  Lemma prog_round p x x' s' known : meaning sender id Enc p x s = Goes x' s' -> Forall (proper id s) (chosen id s p) -> backward known p ->
    s' = s /\ exists bs, passed x' = passed x ++ bs /\ ahead x' = skipn (length bs) (ahead x) /\ (length bs <= length (ahead x))%nat /\
    forall y t rest, order y = order x -> ahead y = bs ++ rest -> agree known t ->
      meaning receiver id Dec p y t = Goes {| order := order x'; passed := passed y ++ bs; ahead := rest |} (received id s (chosen id s p) t).
  Proof. intros E F B. exact (proj1 progs_round p x known F B x' s' E). Qed.
End Round.

Lemma run_more {H} (host : H -> request -> H * reply) lm bc f : forall s h o h' t, run host lm bc f s h = (o, h', t) -> o <> OutOfFuel ->
  forall f', (f <= f')%nat -> run host lm bc f' s h = (o, h', t).
Proof.
  induction f as [|f IH]; intros s h o h' t R NF f' L; [injection R as <- _ _; congruence|]. destruct f' as [|f']; [lia|]. cbn [run] in *.
  destruct (lenN bc <=? ip s); [exact R|]. destruct (interp host (step lm bc s) h) as [[[s1|e s1|u] h1] t1]; [|exact R|exact R].
  destruct (run host lm bc f s1 h1) as [[o2 h2] t2] eqn:R2. injection R as -> -> <-. rewrite (IH _ _ _ _ _ R2 NF f' ltac:(lia)). reflexivity.
Qed.
Lemma condition_error {H} (host : H -> request -> H * reply) id c : forall h h' e, condition host id c h = (h', CStop e) -> e <> EOk.
Proof.
  induction c as [v| | |n|o a IHa b IHb|o a IHa| |]; cbn [condition]; intros h h' e E; try discriminate.
  - destruct (host h _) as [h1 r]. destruct (r_ok r); [discriminate|]. injection E as _ <-. discriminate.
  - destruct (condition host id a h) as [h1 [x|e1|]] eqn:EA; [|injection E as <- <-; eauto|discriminate].
    destruct (condition host id b h1) as [h2 [y|e1|]] eqn:EB; [|injection E as <- <-; eauto|discriminate].
    destruct (ibin_val o x y); try discriminate. injection E as _ <-. discriminate.
  - destruct (condition host id a h) as [h1 [x|e1|]] eqn:EA; [|injection E as <- <-; eauto|discriminate].
    destruct (iun_val o x); try discriminate. injection E as _ <-. discriminate.
Qed.
Lemma meaning_error {H} (host : H -> request -> H * reply) id m p : forall x h e y h', meaning host id m p x h = Stops e y h' -> e <> EOk.
Proof.
  assert (FE : forall f x h e y h', field_meaning host id m f x h = Stops e y h' -> e <> EOk).
  { intros f x h e y h'. unfold field_meaning. cbv zeta. intros E.
    destruct (lenN (ahead x) <? width (i_type f)); [injection E as <- _ _; discriminate|]. destruct m, (i_const f) as [c|].
    - destruct (admitted _ _); [discriminate|]. injection E as <- _ _. discriminate.
    - destruct (host h _) as [h2 r]. destruct (r_ok r); cbn [negb] in E; [|injection E as <- _ _; discriminate]. destruct (truth_value _ _); [|injection E as <- _ _; discriminate].
      destruct (admitted _ _); [discriminate|]. injection E as <- _ _. discriminate.
    - destruct (_ =? _); [|injection E as <- _ _; discriminate]. destruct (host h _) as [h2 r]. destruct (r_ok r); [|injection E as <- _ _; discriminate].
      destruct (admitted _ _); [discriminate|]. injection E as <- _ _. discriminate.
    - destruct (truth_value _ _); [|injection E as <- _ _; discriminate]. destruct (host h _) as [h2 r]. destruct (r_ok r); [|injection E as <- _ _; discriminate].
      destruct (admitted _ _); [discriminate|]. injection E as <- _ _. discriminate. }
  assert (CE : forall c x h e y h', computed_meaning host id m c x h = Stops e y h' -> e <> EOk).
  { intros c x h e y h'. unfold computed_meaning. cbv zeta. intros E. destruct (condition host id (c_expr c) h) as [h1 [v|e1|]] eqn:EC; [|injection E as <- <- <-; eapply condition_error; eauto|discriminate].
    destruct (host h1 _) as [h2 r]. destruct (r_ok r); cbn [negb] in E; [|injection E as <- _ _; discriminate].
    destruct (lenN (ahead x) <? width (c_type c)); [injection E as <- _ _; discriminate|]. destruct m; [discriminate|]. destruct (_ =? v); [discriminate|]. injection E as <- _ _. discriminate. }
  assert (LE0 : forall f x h e y h', leaf_meaning host id m f x h = Stops e y h' -> e <> EOk) by (intros [f|c]; [apply FE|apply CE]).
  assert (X : (forall p x h e y h', meaning host id m p x h = Stops e y h' -> e <> EOk) /\
    (forall cs v d x h e y h', (d = Stops e y h' -> e <> EOk) -> selected host id m cs v d x h = Stops e y h' -> e <> EOk)).
  { apply prog_cases_ind.
    - intros x h e y h' E. discriminate.
    - intros f r IH x h er y h' E. cbn [meaning] in E. destruct (leaf_meaning host id m f x h) as [x1 h1|e1 x1 h1|] eqn:EF; cbn [andthen] in E; [eauto| |discriminate]. injection E as <- <- <-. eauto.
    - intros c tp IHt e IHe r IHr x h er y h' E. cbn [meaning] in E. destruct (condition host id c h) as [h1 [v|e1|]] eqn:EC; [|injection E as <- <- <-; eapply condition_error; eauto|discriminate].
      destruct (v =? 0).
      + destruct (meaning host id m e x h1) as [x1 h2|e1 x1 h2|] eqn:EF; cbn [andthen] in E; [eauto| |discriminate]. injection E as <- <- <-. eauto.
      + destruct (meaning host id m tp x h1) as [x1 h2|e1 x1 h2|] eqn:EF; cbn [andthen] in E; [eauto| |discriminate]. injection E as <- <- <-. eauto.
    - intros n cs IC r IH x h er y h' E. rewrite meaning_switch in E. destruct (host h _) as [h1 rp]. destruct (r_ok rp); [|injection E as <- _ _; discriminate].
      destruct (selected host id m cs (answer 8 0 rp) (Goes x h1) x h1) as [x1 h2|e1 x1 h2|] eqn:EF; cbn [andthen] in E; [eauto| |discriminate]. injection E as <- <- <-. eapply IC; [|exact EF]. discriminate.
    - intros v d x h e y h' D E. exact (D E).
    - intros l b IB more IH v d x h e y h' D E. rewrite selected_case in E. destruct l as [z|].
      + destruct (v =? pattern 19 z); eauto.
      + eapply IH; [|exact E]. eauto. }
  exact (proj1 X p).
Qed.

Lemma source_round lm id k ws s t data rest fuel e s' tr : source_read k ws ->
  Forall (fun n => id n < 2 ^ 16) (source_names k) -> lenN (syms_code id (source_sym k)) < 2 ^ 31 -> wf_bytes data -> wf_bytes rest ->
  Forall (proper id s) (chosen id s (s_body k)) -> backward [] (s_body k) ->
  let bc := syms_code id (source_sym k) in
  run sender lm bc fuel (init Enc data) s = (Done EOk e, s', tr) ->
  let msg := firstn (N.to_nat (position e / 8)) (buf e) in
  exists d tr' n, (forall fuel, (n <= fuel)%nat -> run receiver lm bc fuel (init Dec (msg ++ rest)) t = (Done EOk d, received id s (chosen id s (s_body k)) t, tr')) /\
    buf d = msg ++ rest /\ position d = position e.
Proof.
  intros SR F LB WD WR PR BW bc RUN msg.
  pose proof (source_meaning sender lm id k ws Enc data s SR F LB WD) as EN. fold bc in EN.
  assert (DET : forall o h1 t1 n, (forall fuel, (n <= fuel)%nat -> run sender lm bc fuel (init Enc data) s = (o, h1, t1)) -> o = Done EOk e /\ h1 = s').
  { intros o h1 t1 n A. pose proof (A (n + fuel)%nat ltac:(lia)) as B. rewrite (run_more sender lm bc fuel _ _ _ _ _ RUN ltac:(discriminate) (n + fuel)%nat ltac:(lia)) in B. injection B as <- <- _. auto. }
  destruct (meaning sender id Enc (s_body k) (start k data) s) as [x h1|er x h1|] eqn:EM; cbn [ends_as] in EN.
  - destruct EN as (s1 & t1 & n & A & BF & PS). destruct (DET _ _ _ _ A) as (ES & EH). injection ES as ->.
    destruct (prog_round id s (s_body k) (start k data) x h1 [] EM PR BW) as (_ & bs & P1 & A1 & L1 & D1). cbn [start passed ahead app] in P1, A1, L1.
    assert (MB : msg = bs).
    { unfold msg. rewrite PS, BF, P1. replace (8 * lenN bs / 8) with (lenN bs) by lia. unfold lenN. rewrite Nat2N.id, firstn_app, firstn_all, Nat.sub_diag, app_nil_r. reflexivity. }
    assert (WB : wf_bytes bs).
    { pose proof (meaning_in sender bc Enc id (s_body k) (start k data) s x h1 WD EM) as W. unfold in_place in W. rewrite P1 in W. apply Forall_app in W. tauto. }
    rewrite MB. pose proof (source_meaning receiver lm id k ws Dec (bs ++ rest) t SR F LB ltac:(apply wf_app; assumption)) as DE. fold bc in DE.
    rewrite (D1 (start k (bs ++ rest)) t rest eq_refl eq_refl ltac:(intros n0 [])) in DE. cbn [ends_as start passed ahead app] in DE.
    destruct DE as (d & t2 & n2 & A2 & B2 & P2). exists d, t2, n2. split; [exact A2|]. split; [exact B2|]. rewrite P2, PS, P1. reflexivity.
  - destruct EN as (s1 & t1 & n & A & _). destruct (DET _ _ _ _ A) as (ES & _). pose proof (meaning_error sender id Enc _ _ _ _ _ _ EM) as NE. injection ES as EE _. contradiction.
  - destruct EN as (u & h1 & t1 & n & A). destruct (DET _ _ _ _ A) as (ES & _). discriminate.
Qed.
