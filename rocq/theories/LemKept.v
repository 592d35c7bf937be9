(** Removing unused names: where none is removed, the program stays as it is. *)
From Coq Require Import ZifyBool ZifyNat ZifyN.
From Verif Require Import Base SpecBytes ModelVM ModelImage ModelText ModelNames SpecVM SpecNames LemBase LemStr LemText LemNames.
Ltac Zify.zify_post_hook ::= Z.div_mod_to_equations.

Lemma skipn_skip {A} (a b : nat) (l : list A) : skipn a (skipn b l) = skipn (a + b) l.
Proof. revert b. induction l as [|x l IH]; intros b; [now rewrite !skipn_nil|]. destruct b as [|b]; [now rewrite Nat.add_0_r|]. rewrite Nat.add_succ_r. cbn [skipn]. apply IH. Qed.
Definition upto (a : N) (n : nat) : list N := map (fun i => a + N.of_nat i) (seq 0 n).
Lemma upto_cons a n : upto a (S n) = a :: upto (a + 1) n.
Proof.
  unfold upto. cbn [seq map]. f_equal; [lia|]. rewrite <- seq_shift, map_map. apply map_ext. intros i. lia.
Qed.
Lemma upto_nth n : forall a i v, nth_error (upto a n) i = Some v -> v = a + N.of_nat i.
Proof.
  induction n as [|n IH]; intros a i v; [destruct i; discriminate|]. rewrite upto_cons. destruct i as [|i]; cbn [nth_error].
  - intros [= <-]. lia.
  - intros E. apply IH in E. lia.
Qed.
Lemma build_le strs : forall used tab, lenN (fst (build_map strs used tab)) <= lenN tab + lenN strs.
Proof.
  induction strs as [|s strs IH]; intros used tab; cbn [build_map]; [rewrite lenN_nil; cbn [fst]; lia|]. rewrite lenN_cons. destruct used as [|u used]; [cbn [fst]; lia|]. destruct u.
  - assert (L : lenN (fst (strtab_add tab (cstr s))) <= lenN tab + 1).
    { unfold strtab_add. destruct strtab_find; cbn [fst]; [lia|]. rewrite lenN_app, lenN_cons, lenN_nil. lia. }
    destruct (strtab_add tab (cstr s)) as [tab1 id]. cbn [fst] in L. specialize (IH used tab1). destruct (build_map strs used tab1). cbn [fst] in *. lia.
  - specialize (IH used tab). destruct (build_map strs used tab). cbn [fst] in *. lia.
Qed.
Lemma find_not tab s : Forall text tab -> ~ In s tab -> forall i, strtab_find tab s i = None.
Proof.
  intros F. induction F as [|x tab T F IH]; intros NI i; [reflexivity|]. cbn [strtab_find]. rewrite cstr_text by auto. cbn [In] in NI.
  destruct (list_eq_dec N.eq_dec x s); [tauto|]. apply IH. tauto.
Qed.
Lemma build_kept strs : forall used tab, Forall text (tab ++ strs) -> NoDup (tab ++ strs) -> length used = length strs -> lenN (tab ++ strs) <= 65536 ->
  lenN (fst (build_map strs used tab)) = lenN tab + lenN strs -> build_map strs used tab = (tab ++ strs, upto (lenN tab) (length strs)).
Proof.
  induction strs as [|s strs IH]; intros used tab F ND LU B E.
  - cbn [build_map]. rewrite app_nil_r. reflexivity.
  - destruct used as [|u used]; [discriminate|]. cbn [length] in LU. rewrite lenN_cons in E. destruct u; cbn [build_map] in *.
    + pose proof F as F'. apply Forall_app in F' as (FT & FS). pose proof (Forall_inv FS) as TS. rewrite cstr_text in * by auto.
      assert (NI : ~ In s tab) by (apply NoDup_remove_2 in ND; rewrite in_app_iff in ND; tauto).
      unfold strtab_add in *. rewrite find_not in * by auto. rewrite lenN_app, lenN_cons in B. rewrite N.mod_small by (change (2 ^ 16) with 65536; lia).
      rewrite (IH used (tab ++ [s])).
      * rewrite <- app_assoc. cbn [app length]. rewrite upto_cons, lenN_app, lenN_cons, lenN_nil. reflexivity.
      * now rewrite <- app_assoc.
      * now rewrite <- app_assoc.
      * lia.
      * rewrite <- app_assoc, lenN_app. cbn [app]. rewrite lenN_cons. lia.
      * destruct (build_map strs used (tab ++ [s])). cbn [fst] in *. rewrite lenN_app, lenN_cons, lenN_nil. lia.
    + pose proof (build_le strs used tab) as L. destruct (build_map strs used tab). cbn [fst] in *. lia.
Qed.
Lemma renumber_same n bc off : wf_bytes bc -> off + 2 <= lenN bc -> renumber (upto 0 n) bc off = bc.
Proof.
  intros WB L. unfold renumber. destruct (nth_error _ _) as [v|] eqn:E; [|reflexivity]. apply upto_nth in E. rewrite N2Nat.id, N.add_0_l in E. subst v.
  assert (S : firstn 2 (skipn (N.to_nat off) bc) = le2 (rd2 bc off)).
  { unfold rd2, rd. assert (L' : (N.to_nat off + 2 <= length bc)%nat) by (unfold lenN in L; lia).
    replace (N.to_nat (off + 1)) with (S (N.to_nat off)) by lia. clear L. revert L' WB. generalize (N.to_nat off). induction bc as [|b bc IH]; intros k L W; [cbn in L; lia|].
    destruct k as [|k]; cbn [skipn nth].
    - destruct bc as [|c bc]; [cbn in L; lia|]. cbn [firstn nth]. pose proof (Forall_inv W) as B1. pose proof (Forall_inv (Forall_inv_tail W)) as B2.
      cbv beta in B1, B2. clear - B1 B2. unfold le2. f_equal; [lia|]. f_equal. lia.
    - apply IH; [cbn [length] in L; lia|exact (Forall_inv_tail W)]. }
  rewrite <- S. rewrite <- (firstn_skipn (N.to_nat off) bc) at 4. f_equal. rewrite Nat.add_comm, <- skipn_skip. apply firstn_skipn.
Qed.
Lemma remap_same n fuel : forall bc off bc', wf_bytes bc -> remap fuel (upto 0 n) bc off = Some bc' -> bc' = bc.
Proof.
  induction fuel as [|f IH]; intros bc off bc' WB E; [discriminate|]. cbn [remap] in E. destruct (lenN bc <=? off); [congruence|]. cbv zeta in E.
  set (op := rd bc off) in *. destruct (keyed op) eqn:K; cbn [andb] in E.
  - destruct (N.ltb_spec (lenN bc) (off + 1 + 2)); [congruence|]. rewrite renumber_same in E by (auto; lia).
    destruct (op =? 0x3B); cbn [andb] in E; [|eapply IH; eauto]. destruct (N.ltb_spec (lenN bc) (off + 1 + 2 + 2)); cbn [negb] in E; [eapply IH; eauto|].
    rewrite renumber_same in E by (auto; lia). eapply IH; eauto.
  - destruct (op =? 0x3B); cbn [andb] in E; [|eapply IH; eauto]. destruct (N.ltb_spec (lenN bc) (off + 1 + 2)); cbn [negb] in E; [eapply IH; eauto|].
    rewrite renumber_same in E by (auto; lia). eapply IH; eauto.
Qed.
Lemma mark_len fuel : forall bc off used r, mark fuel bc off used = Some r -> length r = length used.
Proof.
  induction fuel as [|f IH]; intros bc off used r E; [discriminate|]. cbn [mark] in E. destruct (lenN bc <=? off); [congruence|]. cbv zeta in E.
  destruct (_ && _); [congruence|]. apply IH in E. rewrite E. destruct (keyed _), (_ && _); now rewrite ?mark_id_len.
Qed.
Lemma nothing_dropped strs bc strs' bc' : Forall text strs -> NoDup strs -> lenN strs <= 65536 -> wf_bytes bc ->
  optimize_strings strs bc = Some (strs', bc') -> lenN strs' = lenN strs -> strs' = strs /\ bc' = bc.
Proof.
  intros F ND B WB E L. unfold optimize_strings in E. destruct (lenN strs =? 0); [split; congruence|].
  destruct (mark _ _ _ _) as [used|] eqn:EM; [|discriminate]. apply mark_len in EM. rewrite map_length in EM.
  pose proof (build_kept strs used [] F ND EM B) as K. destruct (build_map strs used []) as [tab m]. cbn [fst app] in K.
  destruct (remap _ m bc 0) as [bc1|] eqn:ER; [|discriminate]. injection E as <- <-. rewrite lenN_nil in K. specialize (K ltac:(lia)). injection K as -> ->.
  split; [reflexivity|]. eapply remap_same; eauto.
Qed.
Lemma nothing_lost strs bc strs' bc' : Forall text strs -> NoDup strs -> lenN strs <= 65536 -> wf_bytes bc ->
  optimize_strings strs bc = Some (strs', bc') -> incl strs strs' -> strs' = strs /\ bc' = bc.
Proof.
  intros F ND B WB E I. eapply nothing_dropped; eauto. assert (lenN strs <= lenN strs') by (apply NoDup_incl_length in I; auto; unfold lenN; lia).
  assert (lenN strs' <= lenN strs); [|lia]. clear - E. unfold optimize_strings in E. destruct (lenN strs =? 0); [injection E as <- _; lia|].
  destruct (mark _ _ _ _) as [used|]; [|discriminate]. pose proof (build_le strs used []) as L. destruct (build_map strs used []) as (tab & m). cbn [fst] in L.
  rewrite lenN_nil in L. destruct (remap _ _ _ _); [|discriminate]. injection E as <- _. lia.
Qed.
