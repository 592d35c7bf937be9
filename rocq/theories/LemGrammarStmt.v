(** What the compiler's parser accepts: statements and blocks. *)
From Coq Require Import Strings.String Lia ZifyBool ZifyN ZifyNat.
From Verif Require Import Base SpecBytes LemBase ModelFloat SpecVM ModelVM ModelImage ModelText SpecText LemText ModelNames ModelParse ModelSchema SpecParse SpecPacket SpecMessage SpecSource
  LemStr LemParse LemSource LemCompile LemErr SpecGrammar LemGrammar LemGrammarField.
Ltac Zify.zify_post_hook ::= Z.div_mod_to_equations.

Lemma docs_reads f : reads (skip_docs f) (fun _ ws => docs ws).
Proof.
  induction f as [|f IH]; intros p a q H E0 G; [discriminate|]. cbn [skip_docs] in H. bnd H. destruct (is_kind TDoc (p_cur p)) eqn:K.
  - bnd H. advk M K. sub H IH. split; [auto|]. split; [congruence|]. chain. rewrite app_nil_r. constructor; [reflexivity|exact R].
  - prim H. split; [auto|]. split; [auto|]. chain. constructor.
Qed.
Lemma stmts_docs c fs dw w gs : docs dw -> stmts c fs w gs -> stmts c fs (dw ++ w) gs.
Proof. induction 1 as [|x dw <- D IH]; intros H; [exact H|]. apply sg_doc. auto. Qed.

(** ** Labels *)
Lemma value_inv p v q : case_value p = POk v q -> p_err q = false -> good p ->
  good q /\ att q = att p /\ ate p q (fun ws => exists z, label (map listed (p_enums p)) ws z /\ v = ofZ 8 z).
Proof.
  intros H E0 G. unfold case_value in H. bnd H. set (t := p_cur p) in *.
  destruct (kind_eq_dec (tk t) TNumber) as [K|K1]; [rewrite K in H|destruct (kind_eq_dec (tk t) TIdentifier) as [K|K2]; [rewrite K in H|]].
  - bnd H. bnd H. advk M0 K. prim H. split; [auto|]. split; [congruence|]. chain. exists v0. split; [|reflexivity]. apply lb_number. intros x X. apply int_text_value in X. fold t in X. congruence.
  - bnd H. advk M K. bnd H. destruct (is_kind TDot (p_cur r)) eqn:KD; [|bnd H]. bnd H. advk M KD. bnd H. bnd H. con M. bnd H.
    assert (ES : p_enums r1 = p_enums p) by (assert (X : att r1 = att p) by congruence; now injection X). rewrite ES in H.
    destruct (find_enum (p_enums p) (ttext t)) as [e|] eqn:FE; [|bnd H]. destruct (find _ (en_vals e)) as [(n & z)|] eqn:FV; [|bnd H]. prim H.
    split; [auto|]. split; [congruence|]. chain. exists z. split; [|reflexivity]. apply enum_found in FE as (IE & NE). apply find_some in FV as (IV & TV). apply same_text_spec in TV. cbn [fst] in TV.
    cbn [app]. fold t. rewrite <- NE, <- TV. exact (lb_member _ (listed e) n z IE IV).
  - assert (H' : ret 0 p = POk v q) by (destruct (tk t); congruence || exact H). prim H'. split; [auto|]. split; [auto|]. chain. exists 0%Z. split; [constructor|reflexivity].
Qed.

(** ** What a statement changes: the fields *)
Definition went (p q : pst) (gs : list (list N)) : Prop := att q = att (refield gs p).
Lemma att_scope p q : att q = att p -> scope_of q = scope_of p. Proof. unfold att, scope_of. intros X. injection X as -> -> _ _ -> _ _ _ _ ->. reflexivity. Qed.
Lemma att_fields p q : att q = att p -> p_fields q = p_fields p. Proof. unfold att. intros X. now injection X. Qed.
Lemma att_refield p q gs : att q = att p -> att (refield gs q) = att (refield gs p).
Proof. unfold att, refield. cbn. intros X. injection X. intros. congruence. Qed.
Lemma went_scope p q gs : went p q gs -> scope_of q = scope_of p.
Proof. unfold went, att, refield, scope_of. cbn. intros X. injection X as -> -> _ _ -> _ _ _ _ ->. reflexivity. Qed.
Lemma went_fields p q gs : went p q gs -> p_fields q = gs. Proof. unfold went, att, refield. cbn. intros X. now injection X. Qed.
Lemma went_same p q : att q = att p -> went p q (p_fields p). Proof. unfold went, att, refield. now intros ->. Qed.
Lemma went_then p r q gs hs : went p r gs -> went r q hs -> went p q hs.
Proof. unfold went, att, refield. cbn. intros X Y. rewrite Y. injection X. intros. congruence. Qed.
Lemma went_after p r q gs : att r = att p -> went r q gs -> went p q gs. Proof. unfold went. intros A W. rewrite W. now apply att_refield. Qed.
Lemma went_before p r q gs : went p r gs -> att q = att r -> went p q gs. Proof. unfold went. congruence. Qed.

Lemma patch_inv l t : forall p a q, patch_jumps l t p = POk a q -> p_err q = false -> still p q.
Proof.
  induction l as [|j l IH]; intros p a q H E0; cbn [patch_jumps] in H; [prim H; apply still_refl|]. bnd H. eapply still_trans; [exact M|]. eapply IH; eauto.
Qed.
Lemma head_reads : reads switch_head (fun _ ws => exists n, ws = [mark TLparen; name n; mark TRparen; mark TLbrace]).
Proof.
  intros p a q H E0 G. unfold switch_head in H. bnd H. con M. bnd H. bnd H. con M. bnd H. calm_step M. bnd H. con M. bnd H. con M. bnd H. bnd H. calm_step M. prim H.
  split; [auto|]. split; [congruence|]. chain. exists (ttext (p_cur r)). reflexivity.
Qed.
Lemma tail_reads loc cs js d : reads (switch_tail loc cs js d) (fun _ ws => ws = [mark TRbrace]).
Proof.
  intros p a q H E0 G. unfold switch_tail in H. bnd H. con M. bnd H. cbv zeta in H. bnd H.
  assert (S1 : still r r0) by (apply when_inv in M as [(_ & M)|(_ & ->)]; [now apply write_inv in M|apply still_refl]). clear M. calm_step S1.
  bnd H. calm_step M. bnd H. apply patch_inv in M; [|auto]. calm_step M. apply write_inv in H. calm_step H.
  split; [auto|]. split; [congruence|]. chain. reflexivity.
Qed.

Definition does {A} (m : par A) (R : pst -> scope -> list (list N) -> list word -> list (list N) -> Prop) : Prop :=
  forall p a q, m p = POk a q -> p_err q = false -> good p -> good q /\ exists gs, went p q gs /\ ate p q (fun ws => R q (scope_of p) (p_fields p) ws gs).
Definition tail (ds : list deco) (w : list word) : Prop := decos_read ds w /\ existsb standing ds = true.
Definition one (q : pst) (c : scope) (fs : list (list N)) (ws : list word) (gs : list (list N)) : Prop :=
  exists dw w, ws = dw ++ w /\ docs dw /\ (stmt c fs w gs \/ gs = fs /\ tk (p_cur q) = TRbrace /\ exists ds, tail ds w).
Definition branches (cs : list (N * N)) (q : pst) (c : scope) (fs : list (list N)) (ws : list word) (gs : list (list N)) : Prop :=
  forall seen, (forall z, In z seen -> In (ofZ 8 z) (map fst cs)) -> exists w, ws = w ++ [mark TRbrace] /\ cases c seen fs w gs.

Tactic Notation "sub2" hyp(M) uconstr(L) := let G := fresh "G" in let gs := fresh "gs" in let W := fresh "WN" in let w := fresh "w" in let SS := fresh "SS" in let R := fresh "R" in
  let X := fresh "X" in pose proof (L _ _ _ M) as X; specialize (X ltac:(assumption) ltac:(assumption)); destruct X as (G & gs & W & w & SS & R); clear M.
Ltac sames := repeat match goal with
  | A : att ?q = att ?p |- context [scope_of ?q] => rewrite (att_scope _ _ A)
  | A : att ?q = att ?p |- context [p_fields ?q] => rewrite (att_fields _ _ A)
  | A : went ?p ?q ?gs |- context [scope_of ?q] => rewrite (went_scope _ _ _ A)
  | A : went ?p ?q ?gs |- context [p_fields ?q] => rewrite (went_fields _ _ _ A)
  | A : att ?q = att ?p, B : context [scope_of ?q] |- _ => rewrite (att_scope _ _ A) in B
  | A : att ?q = att ?p, B : context [p_fields ?q] |- _ => rewrite (att_fields _ _ A) in B
  | A : went ?p ?q ?gs, B : context [scope_of ?q] |- _ => rewrite (went_scope _ _ _ A) in B
  | A : went ?p ?q ?gs, B : context [p_fields ?q] |- _ => rewrite (went_fields _ _ _ A) in B
  end.

Definition all_do (E : env) (f : nat) : Prop :=
  does (parse_field E f) one /\ does (parse_if E f) (fun _ => choice) /\ does (parse_block E f) (fun _ => block) /\ does (block_loop E f) (fun _ => stmts) /\
  forall loc cs js d, does (case_loop E f loc cs js d) (branches cs).
Lemma field_step E f : all_do E f -> does (parse_field E (S f)) one.
Proof.
  intros (IF & II & IB & IL & IC) p a q H E0 G. cbn [parse_field] in H. bnd H. rewrite EE in H. bnd H. sub M (docs_reads f). bnd H.
  destruct (kind_eq_dec (tk (p_cur r)) TSwitch) as [K|K1]; [rewrite K in H|destruct (kind_eq_dec (tk (p_cur r)) TIf) as [K|K2]; [rewrite K in H|]].
  - bnd H. advk M K. bnd H. sub M head_reads. destruct R0 as (n & ->). sub2 H (IC _ _ _ _). split; [auto|]. exists gs. split; [eapply went_after; [|exact WN]; congruence|].
    chain. exists w. eexists. split; [reflexivity|]. split; [auto|]. left. destruct (R0 []) as (w1 & -> & C); [intros z []|]. sames.
    cbn [app]. rewrite app_nil_r. apply (sg_switch _ _ n w1). exact C.
  - bnd H. advk M K. sub2 H II. split; [auto|]. exists gs. split; [eapply went_after; [|exact WN]; congruence|].
    chain. exists w. eexists. split; [reflexivity|]. split; [auto|]. left. sames. cbn [app]. rewrite app_nil_r. now apply sg_if.
  - assert (H' : (let% d := decorators E f deco0 in field_rest E d) r = POk a q) by (destruct (tk (p_cur r)); congruence || exact H). clear H. rename H' into H.
    bnd H. apply decos_of in M; [|assumption|assumption]. destruct M as (G1 & A1 & w1 & SS1 & ds & DS & ME).
    apply (rest_inv E v0 ds) in H; [|assumption|assumption|assumption]. destruct H as (G2 & w2 & SS2 & [(ST & A2 & X)|(t & n & sh & -> & NI & PO & TY & A2)]); (split; [auto|]).
    + exists (p_fields p). split; [apply went_same; congruence|]. chain. exists w. eexists. split; [reflexivity|]. split; [auto|]. destruct X as [-> | (-> & KB)].
      * left. rewrite app_nil_r. now apply (sg_standing _ _ w1 ds).
      * right. rewrite !app_nil_r. split; [auto|]. split; [auto|]. now exists ds.
    + exists (p_fields p ++ [n]). sames. split; [eapply went_after; [|exact A2]; congruence|]. chain. exists w. eexists. split; [reflexivity|]. split; [auto|]. left. rewrite app_nil_r. now apply (sg_field _ _ w1 ds).
Qed.
Lemma if_step E f : all_do E f -> does (parse_if E (S f)) (fun _ => choice).
Proof.
  intros (IF & II & IB & IL & IC) p a q H E0 G. cbn [parse_if] in H. bnd H. con M. bnd H. sub M (expression_reads E f). bnd H. con M. bnd H. bnd H. calm_step M. bnd H. sub2 M IB.
  bnd H. bnd H. calm_step M. bnd H. bnd H. calm_step M. bnd H. bnd H.
  assert (EL : good r6 /\ exists hs, went r5 r6 hs /\ ate r5 r6 (fun ws => ws = [] /\ hs = gs \/ exists w, (ws = mark TElse :: w /\ block (scope_of p) gs w hs) \/ (ws = mark TElse :: mark TIf :: w /\ choice (scope_of p) gs w hs))).
  { destruct (is_kind TElse (p_cur r5)) eqn:KE.
    - bnd M. advk M0 KE. bnd M. destruct (is_kind TIf (p_cur r7)) eqn:KI.
      + bnd M. advk M0 KI. sub2 M II. split; [auto|]. exists gs0. split; [eapply went_after; [|exact WN0]; congruence|]. chain. right. exists w1. right. sames. cbn [app]. rewrite app_nil_r. auto.
      + sub2 M IB. split; [auto|]. exists gs0. split; [eapply went_after; [|exact WN0]; congruence|]. chain. right. exists w1. left. sames. cbn [app]. rewrite app_nil_r. auto.
    - prim M. split; [auto|]. exists gs. assert (FG : p_fields r5 = gs) by (sames; reflexivity). split; [rewrite <- FG at 1; now apply went_same|]. chain. left. auto. }
  clear M. destruct EL as (G9 & hs & WH & w2 & SS9 & EL). bnd H. apply write_inv in H. calm_step H. split; [auto|].
  assert (W2 : went p q hs). { eapply went_before; [|eassumption]. eapply went_then; [|exact WH]. eapply went_before; [|transitivity (att r4); eassumption]. eapply went_after; [|exact WN]. congruence. }
  exists hs. split; [exact W2|]. chain. sames. cbn [app]. rewrite app_nil_r.
  destruct EL as [(-> & ->)|(w3 & [(-> & B)|(-> & B)])].
  - rewrite app_nil_r. now apply ch_if.
  - eapply ch_else; eauto.
  - eapply ch_else_if; eauto.
Qed.
Lemma block_step E f : all_do E f -> does (parse_block E (S f)) (fun _ => block).
Proof.
  intros (IF & II & IB & IL & IC) p a q H E0 G. cbn [parse_block] in H. bnd H. con M. bnd H. sub2 M IL. con H. split; [auto|]. exists gs.
  split; [eapply went_before; [|eassumption]; eapply went_after; [|exact WN]; auto|]. chain. sames. cbn [app]. now apply bl.
Qed.
Lemma loop_step E f : all_do E f -> does (block_loop E (S f)) (fun _ => stmts).
Proof.
  intros (IF & II & IB & IL & IC) p a q H E0 G. cbn [block_loop] in H. bnd H. bnd H. destruct (is_kind TRbrace (p_cur p) || is_kind TEof (p_cur p) || p_err p) eqn:ST.
  { prim H. split; [auto|]. exists (p_fields p). split; [now apply went_same|]. chain. constructor. }
  destruct (is_kind TDoc (p_cur p)) eqn:KD.
  { bnd H. advk M KD. sub2 H IL. split; [auto|]. exists gs. split; [eapply went_after; eauto|]. chain. sames. cbn [app]. rewrite app_nil_r. now apply sg_doc. }
  bnd H. sub2 M IF. destruct R as (dw & w1 & -> & DD & [SM|(-> & KB & ds & DS & SD)]).
  - sub2 H IL. split; [auto|]. exists gs0. split; [eapply went_then; eauto|]. chain. sames. rewrite app_nil_r, <- app_assoc. apply stmts_docs; [auto|]. eapply sg_more; eauto.
  - destruct f as [|f]; [discriminate|]. cbn [block_loop] in H. bnd H. bnd H. rewrite (proj2 (is_kind_iff _ _) KB) in H. cbn [orb] in H. prim H. split; [auto|]. exists (p_fields p). split; [auto|].
    chain. rewrite app_nil_r. apply stmts_docs; [auto|]. now apply (sg_last _ _ _ ds).
Qed.
Definition under (q : pst) (c : scope) (fs : list (list N)) (ws : list word) (gs : list (list N)) : Prop :=
  body c fs ws gs \/ gs = fs /\ tk (p_cur q) = TRbrace /\ exists dw ds w, ws = dw ++ w /\ docs dw /\ tail ds w.
Definition body_part (E : env) (f : nat) : par N :=
  (let% b := at_kind TLbrace in if b then parse_block E f else parse_field E f) ;; let% j := here in emit ([0x52] ++ le4 0) ;; ret j.
Lemma body_does E f : all_do E f -> does (body_part E f) under.
Proof.
  intros (IF & II & IB & IL & IC) p a q H E0 G. unfold body_part in H. bnd H. bnd H. bnd H. prim H. pose proof (proj1 M0) as CU. rename M0 into SQ.
  bnd M. destruct (is_kind TLbrace (p_cur p)) eqn:K.
  - sub2 M IB. calm_step SQ. split; [auto|]. exists gs. split; [eapply went_before; eauto|]. chain. left. rewrite app_nil_r. now apply bd_block.
  - sub2 M IF. calm_step SQ. split; [auto|]. exists gs. split; [eapply went_before; eauto|]. chain. rewrite app_nil_r. destruct R as (dw & w1 & -> & DD & [SM|(-> & KB & ds & TL)]).
    + left. now apply bd_stmt.
    + right. rewrite CU. split; [auto|]. split; [auto|]. exists dw, ds, w1. auto.
Qed.
Lemma case_ends E f loc cs js d p a q : case_loop E f loc cs js d p = POk a q -> tk (p_cur p) = TRbrace -> p_err q = false -> switch_tail loc cs js d p = POk a q.
Proof.
  intros H K E0. destruct f as [|f]; [discriminate|]. cbn [case_loop] in H. bnd H. bnd H. rewrite (proj2 (is_kind_iff _ _) K) in H. exact H.
Qed.
Lemma case_step E f : all_do E f -> forall loc cs js d, does (case_loop E (S f) loc cs js d) (branches cs).
Proof.
  intros AD loc cs js d p a q H E0 G. pose proof (body_does E f AD) as IB. destruct AD as (_ & _ & _ & _ & IC). cbn [case_loop] in H. bnd H. bnd H.
  destruct (is_kind TRbrace (p_cur p) || is_kind TEof (p_cur p) || p_err p) eqn:ST.
  { sub H (tail_reads _ _ _ _). subst w. split; [auto|]. exists (p_fields p). split; [now apply went_same|]. chain. intros seen _. exists []. split; [reflexivity|constructor]. }
  destruct (kind_eq_dec (tk (p_cur p)) TCase) as [K|K1]; [rewrite K in H|destruct (kind_eq_dec (tk (p_cur p)) TDefault) as [K|K2]; [rewrite K in H|]].
  - bnd H. advk M K. bnd H. apply value_inv in M; [|assumption|assumption]. destruct M as (G1 & A1 & lw & SS1 & z & LB & ->). bnd H. con M. quiet H. bnd H. fold (body_part E f) in H.
    bnd H. sub2 M IB.
    assert (LB' : label (enums (scope_of p)) lw z) by (assert (ES : p_enums r = p_enums p) by (now injection A); rewrite ES in LB; exact LB).
    assert (NS : forall seen, (forall z, In z seen -> In (ofZ 8 z) (map fst cs)) -> ~ In z seen).
    { intros seen SN I. apply SN in I. apply in_map_iff in I as (x & EX & IX). assert (existsb (fun c => fst c =? ofZ 8 z) cs = true) by (apply existsb_exists; exists x; split; [auto|lia]). congruence. }
    destruct R as [BD|(-> & KB & dw & ds & w1 & -> & DD & DS & SD)].
    + sub2 H (IC _ _ _ _). split; [auto|]. exists gs0. assert (WP : went p r2 gs) by (eapply went_after; [|exact WN]; congruence). split; [eapply went_then; eauto|]. chain. intros seen SN.
      destruct (R (z :: seen)) as (w1 & -> & C).
      { intros x [<-|I]; rewrite map_app; apply in_or_app; [right; now left|left; auto]. }
      sames. eexists. split; [|eapply (cg_case _ seen); eauto]. do 4 (cbn [app]; rewrite <- ?app_assoc, ?app_nil_r). reflexivity.
    + apply case_ends in H; [|assumption|assumption]. sub H (tail_reads _ _ _ _). subst w. split; [auto|]. exists (p_fields p). split; [eapply went_before; [|eassumption]; eapply went_after; [|sames; exact WN]; congruence|].
      chain. intros seen SN. eexists. split; [|eapply (cg_last _ seen _ lw z w1 ds dw); eauto]. do 4 (cbn [app]; rewrite <- ?app_assoc, ?app_nil_r). reflexivity.
  - bnd H. advk M K. bnd H. con M. bnd H. fold (body_part E f) in H. bnd H. sub2 M IB.
    destruct R as [BD|(-> & KB & dw & ds & w1 & -> & DD & DS & SD)].
    + sub2 H (IC _ _ _ _). split; [auto|]. exists gs0. assert (WP : went p r1 gs) by (eapply went_after; [|exact WN]; congruence). split; [eapply went_then; eauto|]. chain. intros seen SN.
      destruct (R seen SN) as (w1 & -> & C). sames. eexists. split; [|eapply (cg_default _ seen); eauto]. do 4 (cbn [app]; rewrite <- ?app_assoc, ?app_nil_r). reflexivity.
    + apply case_ends in H; [|assumption|assumption]. sub H (tail_reads _ _ _ _). subst w. split; [auto|]. exists (p_fields p). split; [eapply went_before; [|eassumption]; eapply went_after; [|sames; exact WN]; congruence|].
      chain. intros seen SN. eexists. split; [|eapply (cg_last_default _ seen _ w1 ds dw); eauto]. do 4 (cbn [app]; rewrite <- ?app_assoc, ?app_nil_r). reflexivity.
  - exfalso. assert (H' : (error ;; advance ;; case_loop E f loc cs js d) p = POk a q) by (destruct (tk (p_cur p)); congruence || exact H). bnd H'.
Qed.
Lemma all_done E f : all_do E f.
Proof.
  induction f as [|f IH]; [unfold all_do, does; repeat split; try (intros; discriminate)|].
  split; [now apply field_step|]. split; [now apply if_step|]. split; [now apply block_step|]. split; [now apply loop_step|]. now apply case_step.
Qed.
