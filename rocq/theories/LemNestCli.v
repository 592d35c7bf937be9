(** The command line tool on schemas with structures. *)
From Coq Require Import ZifyBool ZifyNat ZifyN.
From Verif Require Import Base SpecBytes LemBase ModelWord ModelFloat ModelTrans ModelVM SpecVM LemAct LemSafe LemStr ModelText SpecText LemText LemLex
  ModelParse ModelSchema ModelImage SpecImage LemImage SpecParse LemParse SpecNames LemNames SpecPacket LemPacket SpecMessage LemSend LemMessage LemAccept
  ModelJson SpecJson LemJnum LemJson LemCli SpecNest LemNest LemNestFile LemNestWire LemNestRun SpecNestJson LemNestJson.
Ltac Zify.zify_post_hook ::= Z.div_mod_to_equations.

(** ** Names *)
Lemma schema_alnum E path k toks : holds_schema E path k toks -> Forall (all is_alnum) (flat_map member_ids (sc_members k)).
Proof.
  intros (src & ws & RD & LX & M & (sw & os & fw & SR & OR & FR & NN & ND & EW)).
  assert (T : tokens_of 0 src toks).
  { destruct (lex_from_spec (Datatypes.S (length src)) src 0 1 ltac:(lia)) as (ts & L & T). unfold lex in LX. rewrite L in LX. injection LX as <-. exact T. }
  assert (K : words_ok (all is_alnum) ws) by (intros s I; apply (token_names _ _ _ T); rewrite M; apply in_or_app; now left).
  rewrite EW in K. apply words_app in K as (K1 & K). apply words_app in K as (_ & K). apply words_app in K as (K2 & K). apply words_app in K as (K3 & _).
  eapply members_words; eauto. apply (structs_words _ [] _ sw SR K1). intros ? ? [].
Qed.
Lemma key_after p r : forall acc, json_key (p ++ 46 :: r) acc = json_key r [].
Proof. induction p as [|c p IH]; intros acc; cbn [app json_key]; [reflexivity|]. destruct (c =? 46); apply IH. Qed.
(** What precedes a member's own name: nothing, or something that ends with a dot *)
Definition prefix_of (pre : list N) : Prop := pre = [] \/ exists p, pre = p ++ [46].
Lemma key_last pre n : prefix_of pre -> all is_alnum n -> json_key (pre ++ n) [] = n.
Proof.
  intros [-> |(p & ->)] A; [now rewrite no_dots|]. rewrite <- app_assoc. cbn [app]. now rewrite key_after, no_dots.
Qed.
Lemma prefix_inside pre n : prefix_of (inside pre n).
Proof. right. exists (pre ++ n). unfold inside. rewrite <- app_assoc. reflexivity. Qed.
Section Called.
  Variables (names : list (list N)).
  Lemma known_key pre n : In (pre ++ n) names -> prefix_of pre -> all is_alnum n -> key_name names (index_of names (pre ++ n)) = n.
  Proof.
    intros I P A. unfold key_name. pose proof (index_bound names _ I) as IB. destruct (N.ltb_spec (index_of names (pre ++ n)) (lenN names)); [|lia].
    rewrite nth_index by exact I. now apply key_last.
  Qed.
  Lemma all_called m : forall pre, prefix_of pre -> (forall s, In s (member_names pre m) -> In s names) -> Forall (all is_alnum) (member_ids m) -> called names (index_of names) pre m.
  Proof.
    induction m as [f|os x n b IH] using member_induction; intros pre P I A; cbn [called member_name member_names member_ids] in *; inversion A as [|? ? A1 A2]; subst.
    - split; [|exact Logic.I]. apply known_key; auto. apply I. now left.
    - split; [apply known_key; auto; apply I; now left|]. apply every_forall.
      assert (J : forall s, In s (flat_map (member_names (inside pre n)) b) -> In s names) by (intros s J; apply I; now right).
      clear - IH A2 J. induction IH as [|a l X F IHl]; [constructor|]. cbn [flat_map] in *. apply Forall_app in A2 as (B1 & B2). constructor.
      + apply X; [apply prefix_inside| |exact B1]. intros s K. apply J. apply in_or_app. now left.
      + apply IHl; [exact B2|]. intros s K. apply J. apply in_or_app. now right.
  Qed.
  Lemma every_called b : (forall s, In s (flat_map (member_names []) b) -> In s names) -> Forall (all is_alnum) (flat_map member_ids b) -> every (called names (index_of names) []) b.
  Proof.
    induction b as [|m b IH]; intros I A; [exact Logic.I|]. cbn [flat_map every] in *. apply Forall_app in A as (A1 & A2). split.
    - apply all_called; [now left| |exact A1]. intros s K. apply I. apply in_or_app. now left.
    - apply IH; [|exact A2]. intros s K. apply I. apply in_or_app. now right.
  Qed.
End Called.

(** ** Nothing is skipped *)
Lemma every2_intro {A B} (f : A -> B -> Prop) k l : Forall2 f k l -> every2 f k l.
Proof. induction 1; cbn; auto. Qed.
Lemma managed_skips names m : forall t o, tree_ok m t -> tree_managed m t o -> tree_skips names m t.
Proof.
  induction m as [f|os x n b IH] using member_induction; intros [d|gs] o TO M; try exact Logic.I; cbn [tree_ok tree_managed tree_skips] in *.
  - intros ->. destruct (f_content f) as [ty [|k|w]|mx|w]; cbn [datum_ok managed] in *; try contradiction; destruct M as (M & _); congruence.
  - destruct M as (NE & M), TO as (_ & TO). split; [intros E; contradiction|]. clear NE. revert M. generalize (if last os false then BE else o) as e.
    induction gs as [|g gs IHg]; intros e M; [exact Logic.I|]. cbn [every along] in *. destruct TO as (T1 & TO), M as (M1 & M). split; [|eapply IHg; eauto].
    clear - IH T1 M1. revert g e T1 M1. induction IH as [|a l X F IHl]; intros [|t g] e T1 M1; cbn [every2 along2] in *; try contradiction; [exact Logic.I|].
    destruct T1 as (T0 & T1), M1 as (M0 & M1). split; [eapply X; eauto|eapply IHl; eauto].
Qed.
Lemma all_skips names b : forall ts o, every2 tree_ok b ts -> members_managed b ts o -> every2 (tree_skips names) b ts.
Proof.
  induction b as [|m b IH]; intros [|t ts] o T M; cbn [every2] in *; try contradiction; [exact Logic.I|]. unfold members_managed in M. cbn [along2] in M.
  destruct T as (T0 & T1), M as (M0 & M1). split; [eapply managed_skips; eauto|eapply IH; eauto].
Qed.

(** ** Printed documents present the values *)
Lemma printed_folds b ts l : prints_members b ts l -> map (fun m => fold_case (fst m)) l = map (fun m => fold_case (member_name m)) b.
Proof. induction 1; [reflexivity|]. cbn [map fst]. congruence. Qed.
Lemma printed m : forall t j, distinct m -> prints m t j -> presents m t j.
Proof.
  induction m as [f|os x n b IH] using member_induction; intros t j D P.
  - inversion P; subst. now constructor.
  - cbn [distinct] in D. destruct D as (ND & D).
    assert (HAS : forall ts l pre, prints_members b ts l -> has b ts (pre ++ l)).
    { clear P ND. intros ts l pre PM. revert pre. induction PM as [|m b t0 ts j0 l0 PJ PM IHm]; intros pre; [constructor|]. inversion IH as [|? ? X F]; subst. cbn [every] in D. destruct D as (D1 & D2).
      apply (has_more m b t0 ts j0); [apply in_or_app; right; now left|now apply X|]. specialize (IHm F D2 (pre ++ [(member_name m, j0)])). rewrite <- app_assoc in IHm. exact IHm. }
    assert (OBJ : forall g l, prints_members b g l -> object b g (JObj l)).
    { intros g l PM. constructor; [rewrite (printed_folds _ _ _ PM); exact ND|]. exact (HAS g l [] PM). }
    inversion P as [|os' n' b' g l PM|os' x' n' b' gs l NX PG]; subst; constructor; auto.
    clear - PG OBJ. induction PG; constructor; auto.
Qed.
Lemma printed_object b ts l : all_distinct b -> prints_members b ts l -> object b ts (JObj l).
Proof.
  intros (ND & D) PM. constructor; [now rewrite (printed_folds _ _ _ PM)|]. clear ND. change l with ([] ++ l). generalize (@nil (list N * json)) as pre. revert D.
  induction PM as [|m b t ts j l PJ PM IH]; intros D pre; [constructor|]. cbn [every] in D. destruct D as (D1 & D2).
  apply (has_more m b t ts j); [apply in_or_app; right; now left|now apply printed|]. specialize (IH D2 (pre ++ [(member_name m, j)])). rewrite <- app_assoc in IH. exact IH.
Qed.

(** ** The commands *)
Lemma nested_round_trip E path k toks : holds_schema E path k toks ->
  Forall (fun n => lenN n <= 255) (all_names k) -> lenN (all_names k) <= 65535 -> 16 + table_bytes (schema_names k) < 2 ^ 32 ->
  fold_right N.max 0 (map depth (sc_members k)) <= 8 -> fold_right N.max 0 (map nesting (sc_members k)) <= 31 ->
  exists im, (forall fuel, (length toks < fuel)%nat -> compile_file E fuel path = CImage im) /\
  (lenN im < 2 ^ 62 -> forall lm ts, every2 tree_ok (sc_members k) ts -> members_managed (sc_members k) ts (schema_order k) ->
   let msg := message k ts in
   (forall doc, object (sc_members k) ts doc -> lenN msg <= 1024 -> exists n, forall fuel, (n <= fuel)%nat -> cli_encode lm fuel im doc = Exit0 msg) /\
   exists n out, prints_members (sc_members k) ts out /\ forall fuel, (n <= fuel)%nat -> cli_decode lm fuel im msg = Exit0 (JObj out)).
Proof.
  intros HP LB LN TB DP NS. pose proof (schema_text _ _ _ _ HP) as TX. pose proof (schema_alnum _ _ _ _ HP) as AN. destruct HP as (src & ws & RD & LX & M & SR).
  destruct (compile_schema E k ws path src toks SR RD LX M TX LB ltac:(lia)) as (names & ND & IN & C).
  destruct (fewer_bytes names ND (schema_names k) ltac:(intros x I; now apply IN)) as (L & B).
  assert (LS : lenN (schema_names k) <= 65535) by (unfold all_names in LN; rewrite lenN_app in LN; lia).
  assert (TN : Forall text names).
  { apply Forall_forall. intros x I. apply (proj1 (Forall_forall _ _) TX). apply in_or_app. right. now apply IN. }
  set (id := index_of names) in *. set (bc := code (schema_instrs id k)) in *. exists (image names bc). split; [exact C|].
  rewrite image_len by (auto; lia). intros BL lm ts TO MN msg.
  pose proof (schema_read_plain k ws SR) as MP.
  assert (CB : every (called names id []) (sc_members k)).
  { apply every_called; [|exact AN]. intros s I. apply IN. apply in_or_app. now left. }
  assert (SM : small id (lenN names) (schema_names k)) by (intros s I; apply index_bound; now apply IN).
  assert (TS : every2 (tree_skips (lenN names)) (sc_members k) ts) by (eapply all_skips; eauto).
  assert (WB : wf_bytes bc) by (apply (whole_wf id k MP)).
  assert (WM : wf_bytes msg) by (now apply members_ok_wf).
  split.
  - intros doc OB LM. assert (WD : wf_bytes (repeat 0 1024)) by (apply Forall_forall; intros x I; apply repeat_spec in I; subst; lia).
    destruct (proj1 (proj2 (talks_enc names id doc)) _ _ _ OB (schema_order k) [] 0 (repeat 0 1024) [] [] [] eq_refl CB MP TO MN Logic.I) as (z & t & SD & PL & OK).
    { change (lenN (@nil (ModelJson.path * N * N))) with 0. lia. } { change (lenN (@nil ModelJson.path)) with 0. lia. }
    destruct (whole_steps (jh Enc names) lm id k (lenN names) MP SM ltac:(lia) DP Enc (repeat 0 1024) ts z t (start_io doc) (start_io doc) SD TO TS WD) as (n & s' & S & IL & BF & CU & BO); auto.
    { split; [exact LM|discriminate]. }
    exists (Datatypes.S n). intros fuel F. unfold cli_encode. rewrite with_image by (auto; lia).
    rewrite (steps_enc names lm bc WB ltac:(lia) n _ _ _ _ _ S eq_refl ltac:(now apply init_Inv) OK IL fuel ltac:(lia)).
    rewrite BO. cbn [N.ltb N.compare]. rewrite CU, BF, slice_eq. fold msg. unfold after. rewrite lenN_app.
    destruct (N.leb_spec (0 + lenN msg) (lenN msg + lenN (skipn (N.to_nat (lenN msg)) (repeat 0 1024)))); [|lia].
    f_equal. apply (sub_front [] msg).
  - assert (FM : Forall (member_dec names id) (sc_members k)) by (apply Forall_forall; intros m _; apply talks_dec).
    destruct (members_dec names id (sc_members k) FM ts (schema_order k) [] msg [] [] [] [] [] (fun j => j) [] hole_root CB MP TO MN Logic.I) as (z & t & out & SD & PL & PR & HR).
    { change (lenN (@nil (ModelJson.path * N * N))) with 0. lia. } { change (lenN (@nil ModelJson.path)) with 0. lia. }
    cbn [app] in *. rewrite app_nil_r in HR. change (lenN (@nil N)) with 0 in SD.
    destruct (whole_steps (jh Dec names) lm id k (lenN names) MP SM ltac:(lia) DP Dec msg ts z t (start_io (JObj [])) (start_io (JObj out)) SD TO TS WM) as (n & s' & S & IL & BF & CU & BO); auto.
    { split; [fold msg; lia|]. intros _. unfold after. fold msg. unfold lenN. rewrite Nat2N.id, skipn_all. now rewrite app_nil_r. }
    exists (Datatypes.S n), out. split; [exact PR|]. intros fuel F. unfold cli_decode. rewrite with_image by (auto; lia).
    rewrite (steps_dec names lm bc WB ltac:(lia) msg n _ _ _ _ _ S eq_refl eq_refl ltac:(now apply init_Inv) HR IL fuel ltac:(lia)). reflexivity.
Qed.
