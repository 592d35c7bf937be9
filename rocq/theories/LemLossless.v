(** A listing says what the program is. *)
From Coq Require Import Strings.String Sorting.Sorted Lia ZifyBool ZifyNat ZifyN.
From Verif Require Import Base SpecBytes LemBase ModelWord LemWord ModelVM SpecVM ModelImage SpecImage LemImage SpecNames LemJnum ModelInspect SpecInspect LemInspect LemListing.
Local Open Scope string_scope. Local Open Scope N_scope.
Ltac Zify.zify_post_hook ::= Z.div_mod_to_equations.

Lemma number_inj n sg v v' : v < 2 ^ (8 * n) -> v' < 2 ^ (8 * n) -> number n sg v = number n sg v' -> v = v'.
Proof.
  unfold number. intros B B'. assert (P : Z.of_N (2 ^ (8 * n)) = (2 ^ (8 * Z.of_N n))%Z) by (rewrite N2Z.inj_pow; f_equal; lia).
  destruct sg; cbn [andb]; [|lia]. destruct (N.leb_spec (2 ^ (8 * n - 1)) v), (N.leb_spec (2 ^ (8 * n - 1)) v'); lia.
Qed.
Lemma wf_first n a : wf_bytes a -> wf_bytes (firstn n a).
Proof. intros W. apply Forall_forall. intros x I. apply (proj1 (Forall_forall _ _) W). rewrite <- (firstn_skipn n a). apply in_or_app. now left. Qed.
Lemma le_val_inj a b : wf_bytes a -> wf_bytes b -> length a = length b -> le_val a = le_val b -> a = b.
Proof. intros A B L E. rewrite <- (le_bytes_le_val a A), <- (le_bytes_le_val b B), L, E. reflexivity. Qed.
Lemma first_inj n sg a b : wf_bytes a -> wf_bytes b -> (n <= length a)%nat -> (n <= length b)%nat ->
  number (N.of_nat n) sg (le_val (firstn n a)) = number (N.of_nat n) sg (le_val (firstn n b)) -> firstn n a = firstn n b.
Proof.
  intros A B LA LB E. apply (wf_first n) in A. apply (wf_first n) in B. 
  pose proof (le_val_bound _ A) as BA. pose proof (le_val_bound _ B) as BB. unfold lenN in BA, BB. rewrite firstn_length_le in BA, BB by lia.
  apply number_inj in E; [|rewrite N.pow_mul_r; exact BA|rewrite N.pow_mul_r; exact BB]. apply le_val_inj; auto. rewrite !firstn_length_le; lia.
Qed.
Definition total (f : list operand) : nat := fold_right (fun x a => (snd (fst x) + a)%nat) O f.
Lemma numbers_inj f : forall a b, wf_bytes a -> wf_bytes b -> length a = total f -> length b = total f -> numbers f a = numbers f b -> a = b.
Proof.
  induction f as [|[[s n] sg] f IH]; intros a b A B LA LB E; cbn [total fold_right fst snd] in LA, LB.
  - destruct a, b; try discriminate; reflexivity.
  - fold (total f) in LA, LB. cbn [numbers] in E. injection E as E1 E2. apply first_inj in E1; auto; try lia.
    rewrite <- (firstn_skipn n a), <- (firstn_skipn n b), E1. f_equal. apply IH; auto using wf_skip; rewrite skipn_length; lia.
Qed.
Lemma total_repeat x n : total (repeat x n) = (n * snd (fst x))%nat.
Proof. induction n; cbn [repeat total fold_right]; [reflexivity|]. fold (total (repeat x n)). lia. Qed.
Lemma total_points n : total (concat (repeat [("X", 8%nat, false); ("Y", 8%nat, false)] n)) = (n * 16)%nat.
Proof. induction n as [|n IH]; [reflexivity|]. cbn [repeat concat app total fold_right fst snd]. fold (total (concat (repeat [("X", 8%nat, false); ("Y", 8%nat, false)] n))). lia. Qed.

Lemma layout_total op rs a : args_fit op a = true -> inspector_reads false (Build_instr op rs a) -> says_all (Build_instr op rs a) -> total (layout op a) = length a.
Proof.
  intros A (U1 & _) SA. cbn [opcode args] in *. unfold says_all in SA. cbn [opcode args] in SA.
  destruct op as [|op]; [|do 8 try destruct op as [op|op|]];
  try (cbn [args_fit layout total fold_right fst snd] in *; apply len_nat in A; rewrite A; reflexivity);
  try (exfalso; apply U1; cbn [In]; tauto); cbn [args_fit layout] in *.
  - destruct a as [|t [|c [|d v]]]; try discriminate. cbn [hd app total fold_right fst snd length]. fold (total (repeat (of_type "Value" t) (N.to_nat (le_val (sub (t :: c :: d :: v) 1 2))))).
    rewrite total_repeat. change (sub (t :: c :: d :: v) 1 2) with [c; d]. cbn [le_val of_type fst snd]. apply len_nat in A. rewrite A. lia.
  - destruct a as [|t v]; [discriminate|]. cbn [hd total fold_right fst snd length]. fold (total (concat (repeat [("X", 8%nat, false); ("Y", 8%nat, false)] (N.to_nat t)))).
    rewrite total_points. apply len_nat in A. rewrite A. lia.
  - destruct a as [|t v]; [discriminate|]. cbn [hd total fold_right fst snd length]. apply len_nat in A. rewrite A. lia.
  - destruct a as [|t v]; [discriminate|]. cbn [hd] in *. rewrite SA by reflexivity. cbn [total of_type fold_right fst snd length]. apply len_nat in A. rewrite A. lia.
  - destruct a as [|t v]; [discriminate|]. cbn [hd total fold_right fst snd length]. fold (total (repeat ("Coeff", 8%nat, false) (N.to_nat t))).
    rewrite total_repeat. cbn [fst snd]. apply len_nat in A. rewrite A. lia.
  - destruct a as [|t v]; [discriminate|]. cbn [hd total fold_right fst snd length]. apply len_nat in A. rewrite A. lia.
Qed.
Lemma head_same n t v t' v' r r' : numbers ((n, 1%nat, false) :: r) (t :: v) = numbers ((n, 1%nat, false) :: r') (t' :: v') -> t = t' /\ numbers r v = numbers r' v'.
Proof. intros E. cbn [numbers firstn skipn le_val] in E. injection E as E1 E2. unfold number in E1. cbn [andb] in E1. split; [lia|exact E2]. Qed.
Lemma layout_same op a b : args_fit op a = true -> args_fit op b = true -> wf_bytes a -> wf_bytes b ->
  numbers (layout op a) a = numbers (layout op b) b -> layout op a = layout op b.
Proof.
  intros A B WA WB. destruct op as [|op]; [|do 8 try destruct op as [op|op|]]; try reflexivity; cbn [args_fit layout] in *.
  - destruct a as [|t [|c [|d v]]]; try discriminate. destruct b as [|t' [|c' [|d' v']]]; try discriminate. cbn [app hd]. intros E.
    apply head_same in E as (<- & E).
    apply (f_equal (fun l => snd (hd ("", 0%Z) l))) in E. cbn [numbers hd snd] in E.
    change (Z.of_N (le_val [c; d]) = Z.of_N (le_val [c'; d'])) in E. apply N2Z.inj in E.
    change (sub (t :: c :: d :: v) 1 2) with [c; d]. change (sub (t :: c' :: d' :: v') 1 2) with [c'; d']. rewrite E. reflexivity.
  - destruct a as [|t v]; [discriminate|]. destruct b as [|t' v']; [discriminate|]. cbn [hd]. intros E. apply head_same in E as (<- & E). reflexivity.
  - destruct a as [|t v]; [discriminate|]. destruct b as [|t' v']; [discriminate|]. cbn [hd]. intros E. apply head_same in E as (<- & E). reflexivity.
  - destruct a as [|t v]; [discriminate|]. destruct b as [|t' v']; [discriminate|]. cbn [hd]. intros E. apply head_same in E as (<- & E). reflexivity.
  - destruct a as [|t v]; [discriminate|]. destruct b as [|t' v']; [discriminate|]. cbn [hd]. intros E. apply head_same in E as (<- & E). reflexivity.
  - destruct a as [|t v]; [discriminate|]. destruct b as [|t' v']; [discriminate|]. cbn [hd]. intros E. apply head_same in E as (<- & E). reflexivity.
Qed.

Lemma reads_weaker rtl i : inspector_reads rtl i -> inspector_reads false i.
Proof. intros (A & B & C & D & _). repeat (split; [assumption|]). discriminate. Qed.
Lemma shown_inj rtl names names' i j : well_formed names i -> well_formed names' j -> inspector_reads rtl i -> inspector_reads rtl j -> says_all i -> says_all j ->
  opcode i = opcode j -> shown i = shown j -> i = j.
Proof.
  intros (_ & WI & AI & RI & _) (_ & WJ & AJ & RJ & _) II IJ SI SJ O. apply reads_weaker in II, IJ. destruct i as [op rs a], j as [op' rs' b]. cbn [opcode refs args] in *. subst op'.
  unfold shown. cbn [opcode refs args]. intros E.
  assert (N2 : names_of op <= 2) by (clear; destruct op as [|op]; [cbn; lia|]; do 7 try destruct op as [op|op|]; cbn; lia).
  assert (L : length rs = length rs') by (unfold lenN in *; lia).
  assert (E2 : rs = rs' /\ numbers (layout op a) a = numbers (layout op b) b).
  { destruct rs as [|k [|k' [|? ?]]], rs' as [|q [|q' [|? ?]]]; try discriminate L; try (unfold lenN in RI; cbn in RI; lia); cbn [name_items app] in E; split; try congruence; injection E; intros; f_equal; try lia; auto; f_equal; lia. }
  destruct E2 as [<- E2]. f_equal. pose proof (layout_same op a b AI AJ WI WJ E2) as LS.
  pose proof (layout_total _ _ _ AI II SI) as TA. pose proof (layout_total _ _ _ AJ IJ SJ) as TB.
  rewrite <- LS in E2, TB. eapply numbers_inj; [exact WI|exact WJ| | |exact E2]; auto.
Qed.
Lemma lines_inj rtl names names' : forall p q off, Forall (well_formed names) p -> Forall (well_formed names') q -> Forall (inspector_reads rtl) p -> Forall (inspector_reads rtl) q ->
  Forall says_all p -> Forall says_all q -> lines_of off p = lines_of off q -> p = q.
Proof.
  induction p as [|i p IH]; intros q off WP WQ RP RQ SP SQ E; destruct q as [|j q]; try discriminate E; [reflexivity|].
  cbn [lines_of] in E. injection E as E1 E2 E3.
  assert (i = j) as <-. { inversion WP; inversion WQ; inversion RP; inversion RQ; inversion SP; inversion SQ; subst. eapply shown_inj; eauto. }
  f_equal. inversion WP; inversion WQ; inversion RP; inversion RQ; inversion SP; inversion SQ; subst. eapply IH; eauto.
Qed.

(** Different opcodes have different names *)
Definition bytes256 : list N := map N.of_nat (seq 0 256).
Lemma in256 a : a < 256 -> In a bytes256.
Proof. intros B. apply in_map_iff. exists (N.to_nat a). split; [lia|]. apply in_seq. lia. Qed.
Lemma op_name_all : forallb (fun a => forallb (fun b => (a =? b) || negb (String.eqb (op_name a) (op_name b)) || String.eqb (op_name a) "UNKNOWN") bytes256) bytes256 = true.
Proof. vm_compute. reflexivity. Qed.
Lemma op_name_inj a b : a < 256 -> b < 256 -> op_name a = op_name b -> op_name a <> "UNKNOWN" -> a = b.
Proof.
  intros A B E U. pose proof (proj1 (forallb_forall _ _) op_name_all a (in256 a A)) as H. pose proof (proj1 (forallb_forall _ _) H b (in256 b B)) as G. cbn in G.
  rewrite E, String.eqb_refl in G. cbn [negb] in G. rewrite orb_false_r in G. apply orb_true_iff in G as [G|G]; [now apply N.eqb_eq|].
  apply String.eqb_eq in G. congruence.
Qed.
