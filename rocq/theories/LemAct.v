(** Reasoning about one instruction as a resumption tree, and its lift to runs. *)
From Verif Require Import Base SpecBytes LemBase ModelWord LemWord ModelFloat ModelVM SpecVM.
Ltac Zify.zify_post_hook ::= Z.div_mod_to_equations.

(** Every leaf reachable under replies allowed by [RP] satisfies the matching predicate *)
Fixpoint all_act (RP : request -> reply -> Prop) (C : st -> Prop) (E : err -> st -> Prop)
         (U : ubk -> Prop) (Q : request -> Prop) (a : act) : Prop :=
  match a with
  | Cont s => C s
  | Halt e s => E e s
  | Undef u => U u
  | Ask rq k => Q rq /\ forall r, RP rq r -> all_act RP C E U Q (k r)
  end.

Lemma all_act_mono (RP RP' : request -> reply -> Prop) (C C' : st -> Prop) (E E' : err -> st -> Prop)
      (U U' : ubk -> Prop) (Q Q' : request -> Prop) a :
  (forall rq r, RP' rq r -> RP rq r) -> (forall s, C s -> C' s) -> (forall e s, E e s -> E' e s) ->
  (forall u, U u -> U' u) -> (forall rq, Q rq -> Q' rq) ->
  all_act RP C E U Q a -> all_act RP' C' E' U' Q' a.
Proof.
  intros HR HC HE HU HQ. induction a as [s|e s|u|rq k IH]; cbn; auto.
  intros [H1 H2]. split; auto.
Qed.

Lemma all_act_conj RP C C' E E' U U' Q Q' a :
  all_act RP C E U Q a -> all_act RP C' E' U' Q' a ->
  all_act RP (fun s => C s /\ C' s) (fun e s => E e s /\ E' e s) (fun u => U u /\ U' u)
          (fun rq => Q rq /\ Q' rq) a.
Proof.
  induction a as [s|e s|u|rq k IH]; cbn; auto.
  intros [H1 H2] [H3 H4]. split; auto.
Qed.

(** ** Fetching operands never fails *)
Definition fetchv (w : width) (bc : list N) (p : N) : N * N :=
  if p + wbytes w <=? lenN bc then (il_comb (sub bc p (wbytes w)) 0, p + wbytes w) else (0, p).
Lemma fetch_ok w bc p : fetch w bc p = Ok (fetchv w bc p).
Proof.
  unfold fetch, fetchv, slice. destruct (p + wbytes w <=? lenN bc); reflexivity.
Qed.
Lemma fetchv_pos w bc p v p' : fetchv w bc p = (v, p') -> p <= p' /\ (p' = p \/ p' <= lenN bc).
Proof.
  unfold fetchv. destruct (N.leb_spec (p + wbytes w) (lenN bc)); inversion 1; subst; split; try lia.
Qed.
Lemma il_comb_val l : wf_bytes l -> forall sh, il_comb l sh = le_val l * 2 ^ sh.
Proof.
  induction 1 as [|x l Hx Hl IH]; intros sh; cbn [il_comb le_val]; [lia|].
  rewrite IH. rewrite N.shiftl_mul_pow2. rewrite (lor_disjoint' _ _ (sh + 8)).
  - rewrite N.pow_add_r. change (2 ^ 8) with 256. nia.
  - rewrite N.mod_mul; auto. apply N.pow_nonzero. lia.
  - rewrite N.pow_add_r. change (2 ^ 8) with 256. pose proof (N.pow_nonzero 2 sh). nia.
Qed.
Lemma fetchv_eq w bc p : wf_bytes bc ->
  fetchv w bc p = if p + wbytes w <=? lenN bc then (val_of LE (sub bc p (wbytes w)), p + wbytes w) else (0, p).
Proof.
  intros W. unfold fetchv. destruct (_ <=? _); auto. rewrite il_comb_val by now apply wf_sub.
  rewrite N.mul_1_r. reflexivity.
Qed.
Lemma fetchv_bound w bc p v p' : wf_bytes bc -> fetchv w bc p = (v, p') -> v < 2 ^ (8 * wbytes w).
Proof.
  intros W. rewrite fetchv_eq by auto. destruct (N.leb_spec (p + wbytes w) (lenN bc)); inversion 1; subst.
  - rewrite wbytes_pow. rewrite <- (lenN_sub bc p (wbytes w)) at 2 by auto. now apply (val_of_bound LE), wf_sub.
  - pose proof (N.pow_nonzero 2 (8 * wbytes w)). lia.
Qed.

(** ** Lifting to runs *)
Section Lift.
  Context {H : Type} (host : H -> request -> H * reply) (lm : libm) (bc : list N).

  Definition host_obeys (RP : request -> reply -> Prop) : Prop :=
    forall h rq, RP rq (snd (host h rq)).

  Lemma interp_all RP C E U Q a : host_obeys RP -> all_act RP C E U Q a ->
    forall h, let '(x, h', t) := interp host a h in
      (match x with SCont s => C s | SHalt e s => E e s | SUndef u => U u end)
      /\ Forall (fun ev => Q (fst ev)) t.
  Proof.
    intros HO. induction a as [s|e s|u|rq k IH]; cbn; intros HA h; auto.
    destruct HA as [HQ HA]. specialize (HO h rq).
    destruct (host h rq) as [h1 r] eqn:EH. cbn in HO.
    specialize (IH r (HA r HO) h1). destruct (interp host (k r) h1) as [[x h2] t].
    destruct IH as [IH1 IH2]. split; auto.
  Qed.

  Notation reaches := (reaches host lm bc).

  Lemma reaches_trans s h s1 h1 s2 h2 :
    reaches s h s1 h1 -> reaches s1 h1 s2 h2 -> reaches s h s2 h2.
  Proof. intros R1 R2. induction R2; auto. eapply reach_step; [exact (IHR2 R1)|exact H0|exact H1]. Qed.

  (** Invariant over all reachable states, with the states in [X] excluded by hypothesis *)
  Lemma reaches_inv RP (X C : st -> Prop) E U Q s h s' h' : host_obeys RP ->
    (forall s, C s -> ip s < lenN bc -> ~ X s -> all_act RP C E U Q (step lm bc s)) ->
    C s -> reaches s h s' h' ->
    (forall s1 h1, reaches s h s1 h1 -> ~ X s1) -> C s'.
  Proof.
    intros HO HS HC R HX. induction R; auto.
    assert (HC' : C s') by auto.
    pose proof (interp_all RP C E U Q _ HO (HS s' HC' H0 (HX _ _ R)) h') as I.
    rewrite H1 in I. apply I.
  Qed.

  Lemma run_all RP (X C : st -> Prop) (E : err -> st -> Prop) (U : ubk -> Prop) (Q : request -> Prop) :
    host_obeys RP ->
    (forall s, C s -> ip s < lenN bc -> ~ X s -> all_act RP C E U Q (step lm bc s)) ->
    forall fuel s h, C s ->
    (forall s1 h1, reaches s h s1 h1 -> ~ X s1) ->
    let '(o, h', t) := run host lm bc fuel s h in
      (match o with Done e s' => E e s' \/ (e = EOk /\ C s') | Crash u => U u | OutOfFuel => True end)
      /\ Forall (fun ev => Q (fst ev)) t.
  Proof.
    intros HO HS. induction fuel; intros s h HC HX; cbn [run]; [auto|].
    destruct (N.leb_spec (lenN bc) (ip s)); [auto|].
    pose proof (interp_all RP C E U Q _ HO (HS s HC H0 (HX _ _ (reach_refl host lm bc s h))) h) as I.
    destruct (interp host (step lm bc s) h) as [[x h1] t1] eqn:EI. destruct I as [I1 I2].
    destruct x as [s'|e s'|u]; auto.
    specialize (IHfuel s' h1 I1).
    destruct (run host lm bc fuel s' h1) as [[o h2] t2].
    destruct IHfuel as [J1 J2].
    { intros s1 h1' R. apply (HX s1 h1'). eapply reaches_trans; [|exact R].
      eapply reach_step; [apply reach_refl| |exact EI]. lia. }
    split; auto. apply Forall_app. auto.
  Qed.

  (** A finished run ends in a reachable state, or one instruction after one *)
  Lemma run_ends fuel : forall s h e s' h' t, run host lm bc fuel s h = (Done e s', h', t) ->
    (e = EOk /\ reaches s h s' h' /\ lenN bc <= ip s') \/
    (exists s1 h1 t1, reaches s h s1 h1 /\ ip s1 < lenN bc /\
       interp host (step lm bc s1) h1 = (SHalt e s', h', t1)).
  Proof.
    induction fuel; intros s h e s' h' t; cbn [run]; [discriminate|].
    destruct (N.leb_spec (lenN bc) (ip s)).
    - intros X; inversion X; subst. left. repeat split; auto. constructor.
    - destruct (interp host (step lm bc s) h) as [[x h1] t1] eqn:EI.
      destruct x as [s2|e2 s2|u].
      + destruct (run host lm bc fuel s2 h1) as [[o h2] t2] eqn:ER.
        intros X; inversion X; subst.
        assert (R1 : reaches s h s2 h1) by (eapply reach_step; [apply reach_refl| |exact EI]; lia).
        destruct (IHfuel _ _ _ _ _ _ ER) as [(A & B & D)|(s1 & h1' & t1' & A & B & D)].
        * left. repeat split; auto. eapply reaches_trans; eauto.
        * right. exists s1, h1', t1'. repeat split; auto. eapply reaches_trans; eauto.
      + intros X; inversion X; subst. right. exists s, h, t. repeat split; auto. constructor.
      + discriminate.
  Qed.
End Lift.
