(** The inspector reads what is written. *)
From Coq Require Import Strings.String Lia ZifyBool ZifyNat ZifyN.
From Verif Require Import Base SpecBytes LemBase ModelWord LemWord ModelVM SpecVM ModelImage LemImage SpecNames LemJnum ModelInspect SpecInspect.
Local Open Scope string_scope. Local Open Scope N_scope.
Ltac Zify.zify_post_hook ::= Z.div_mod_to_equations.

Lemma read_part n a r : (n <= length a)%nat -> read_n n (a ++ r) = (le_val (firstn n a), (skipn n a ++ r)%list).
Proof.
  intros L. unfold read_n. rewrite lenN_app. unfold lenN at 1. destruct (N.ltb_spec (N.of_nat (length a) + lenN r) (N.of_nat n)); [lia|].
  rewrite firstn_app, skipn_app. replace (n - length a)%nat with O by lia. cbn [firstn skipn]. now rewrite app_nil_r.
Qed.
Lemma read_all n a r : length a = n -> read_n n (a ++ r) = (le_val a, r).
Proof. intros <-. rewrite read_part by lia. now rewrite firstn_all, skipn_all. Qed.
Lemma read_key k r : k < 65536 -> read_u16 (le_bytes 2 k ++ r) = (k, r).
Proof. intros B. unfold read_u16. rewrite read_all by reflexivity. rewrite le_val_le_bytes. f_equal. change (256 ^ N.of_nat 2) with 65536. lia. Qed.
Lemma toS_part n a : wf_bytes a -> (1 <= n)%nat -> (n <= length a)%nat -> toS (N.of_nat n) (le_val (firstn n a)) = number (N.of_nat n) true (le_val (firstn n a)).
Proof.
  intros W N1 L. apply toS_number; [lia|]. 
  assert (F : wf_bytes (firstn n a)) by (eapply Forall_impl; [|apply Forall_forall; intros x I; apply (proj1 (Forall_forall _ _) W x); rewrite <- (firstn_skipn n a); apply in_or_app; left; exact I]; auto).
  pose proof (le_val_bound _ F) as B. unfold lenN in B. rewrite firstn_length_le in B by lia. rewrite N.pow_mul_r. exact B.
Qed.
Lemma skip_nil n (a : list N) : length a = n -> skipn n a = [].
Proof. intros <-. apply skipn_all. Qed.
Lemma firstn_full n (a : list N) : length a = n -> firstn n a = a.
Proof. intros <-. apply firstn_all. Qed.
Lemma len_nat (a : list N) n : (lenN a =? n) = true -> length a = N.to_nat n.
Proof. unfold lenN. lia. Qed.
Lemma wf_skip n a : wf_bytes a -> wf_bytes (skipn n a).
Proof. intros W. apply Forall_forall. intros x I. apply (proj1 (Forall_forall _ _) W). rewrite <- (firstn_skipn n a). apply in_or_app. now right. Qed.

Lemma typed_ok t a r : whole_type t = true -> wf_bytes a -> (N.to_nat (value_bytes t) <= length a)%nat ->
  typed t (a ++ r) = (Some (number (value_bytes t) (type_signed t) (le_val (firstn (N.to_nat (value_bytes t)) a))), (skipn (N.to_nat (value_bytes t)) a ++ r)%list).
Proof.
  intros T W L. assert (C : In t [0x10; 0x11; 0x12; 0x13; 0x14; 0x15; 0x16; 0x17]) by (unfold whole_type in T; cbn [In]; lia).
  cbn [In] in C. unfold typed, read_u8, read_u16, read_u32, read_u64.
  decompose [or] C; try contradiction; subst t; cbn [value_bytes] in L |- *; rewrite read_part by exact L; try reflexivity;
    match goal with |- context [toS ?n (le_val (firstn ?m _))] => change (toS n) with (toS (N.of_nat m)); rewrite (toS_part m a W) by (cbn in *; lia) end; reflexivity.
Qed.
Lemma enum_ok t r : whole_type t = true -> forall n a, wf_bytes a -> length a = (n * N.to_nat (value_bytes t))%nat ->
  enum_values n t (a ++ r) = (numbers (repeat (of_type "Value" t) n) a, r).
Proof.
  intros T. induction n as [|n IH]; intros a W L; cbn [enum_values repeat numbers].
  - destruct a; [reflexivity|cbn in L; lia].
  - unfold of_type at 1. rewrite typed_ok by (auto; lia). rewrite IH by (try apply wf_skip; auto; rewrite skipn_length; lia).
    cbn [numbers]. now rewrite N2Nat.id.
Qed.
Lemma coefficients_ok r : forall n a, length a = (n * 8)%nat ->
  coefficients n (a ++ r) = (numbers (repeat ("Coeff", 8%nat, false) n) a, r).
Proof.
  induction n as [|n IH]; intros a L; cbn [coefficients repeat numbers].
  - destruct a; [reflexivity|cbn in L; lia].
  - unfold read_u64. rewrite read_part by lia. now rewrite IH by (rewrite skipn_length; lia).
Qed.
Lemma points_ok r : forall n a, length a = (n * 16)%nat ->
  points n (a ++ r) = (numbers (concat (repeat [("X", 8%nat, false); ("Y", 8%nat, false)] n)) a, r).
Proof.
  induction n as [|n IH]; intros a L; cbn [points repeat concat app numbers].
  - destruct a; [reflexivity|cbn in L; lia].
  - unfold read_u64. rewrite read_part by lia. rewrite read_part by (rewrite skipn_length; lia).
    now rewrite IH by (rewrite !skipn_length; lia).
Qed.

Ltac reads := unfold read_u8, read_u16, read_u32, read_u64;
  repeat (rewrite read_part by (rewrite ?skipn_length; cbn in *; lia); cbv iota beta).
Ltac left_over := match goal with |- (_, (skipn ?n ?x ++ _)%list) = _ => rewrite (skip_nil n x) by (rewrite ?skipn_length; cbn in *; lia); cbn [app] end.
Ltac signs W := repeat match goal with |- context [toS ?n (le_val (firstn ?m ?a))] =>
    change (toS n (le_val (firstn m a))) with (toS (N.of_nat m) (le_val (firstn m a))); rewrite (toS_part m a) by (try apply wf_skip; try exact W; rewrite ?skipn_length; cbn in *; lia) end.

Lemma operands_ok rtl names i r : well_formed names i -> inspector_reads rtl i ->
  operands rtl (opcode i) ((flat_map (le_bytes 2) (refs i) ++ args i) ++ r) = (shown i, r).
Proof.
  destruct i as [op rs a]. cbn [opcode refs args]. intros (_ & W & A & R & K) (U1 & U2 & U3 & U4 & U5). cbn [opcode refs args] in *.
  unfold shown. cbn [opcode refs args]. rewrite <- app_assoc.
  assert (D : names_of op = 0 /\ lenN a = 0 -> rs = [] /\ a = []).
  { intros [D1 D2]. destruct rs; [|unfold lenN in R; cbn in R; lia]. destruct a; [auto|unfold lenN in D2; cbn in D2; lia]. }
  assert (D0 : names_of op = 0 -> flat_map (le_bytes 2) rs = [] /\ rs = []).
  { intros D0. destruct rs; [auto|unfold lenN in R; cbn in R; lia]. }
  assert (D1 : names_of op = 1 -> exists k, flat_map (le_bytes 2) rs = le_bytes 2 k /\ rs = [k] /\ k < 65536).
  { intros D1. destruct rs as [|k [|? ?]]; try (unfold lenN in R; cbn in R; lia). exists k. apply Forall_inv in K. cbn [flat_map]. rewrite app_nil_r. tauto. }
  assert (D2 : names_of op = 2 -> exists k k', flat_map (le_bytes 2) rs = (le_bytes 2 k ++ le_bytes 2 k')%list /\ rs = [k; k'] /\ k < 65536 /\ k' < 65536).
  { intros D2. destruct rs as [|k [|k' [|? ?]]]; try (unfold lenN in R; cbn in R; lia). exists k, k'. inversion K as [|? ? K1 K2]; subst. apply Forall_inv in K2.
    cbn [flat_map]. rewrite app_nil_r. tauto. }
  assert (T : forall t v, a = t :: v -> wf_bytes v) by (intros t v ->; now inversion W).
  clear K. revert D. revert D0 D1 D2.
  destruct op as [|op]; [|do 8 try destruct op as [op|op|]];
  try (intros _ _ _ D; cbn [names_of] in R, D; cbn [args_fit] in A; destruct D as [-> ->]; [split; [reflexivity|lia]|]; reflexivity);
  try (exfalso; apply U1; cbn [In]; tauto); intros D0 D1 D2 _; cbn [names_of] in D0, D1, D2; cbn [args_fit] in A; clear R;
  first [destruct (D0 eq_refl) as (-> & ->); cbn [app] | destruct (D1 eq_refl) as (k & -> & -> & K) | destruct (D2 eq_refl) as (k & k' & -> & -> & K & K')]; clear D0 D1 D2;
  cbn [layout numbers name_items app] ;
  try (apply len_nat in A; cbn [operands]; rewrite <- ?app_assoc, ?read_key by assumption; cbn [read2 read4]; 
    first [solve [destruct a; [reflexivity|discriminate]] | reads; left_over; signs W; reflexivity]).
  - (* enum *)
    destruct a as [|t [|c [|d v]]]; try discriminate. cbn [hd] in *. specialize (U2 (or_intror eq_refl)). cbn [operands].
    change (t :: c :: d :: v) with (([t] ++ [c; d]) ++ v)%list. rewrite <- !app_assoc. unfold read_u8, read_u16.
    rewrite (read_all 1 [t]) by reflexivity. rewrite (read_all 2 [c; d]) by reflexivity. cbn [app firstn skipn le_val]. rewrite ?N.mul_0_r, ?N.add_0_r.
    apply len_nat in A. inversion W as [|? ? _ V1]; inversion V1 as [|? ? _ V2]; inversion V2 as [|? ? _ V3]; subst.
    change (sub (t :: c :: d :: v) 1 2) with [c; d]. rewrite enum_ok by first [exact U2|exact V3|rewrite A; lia]. cbn [le_val]. unfold plain.
    rewrite ?N.mul_0_r, ?N.add_0_r. reflexivity.
  - (* splines *)
    destruct a as [|t v]; [discriminate|]. cbn [hd operands]. apply len_nat in A. change (t :: v) with ([t] ++ v)%list. rewrite <- app_assoc. unfold read_u8.
    rewrite (read_all 1 [t]) by reflexivity. cbn [le_val]. rewrite ?N.mul_0_r, ?N.add_0_r. rewrite points_ok by (rewrite A; lia).
    cbn [app firstn skipn le_val]. rewrite ?N.mul_0_r, ?N.add_0_r. reflexivity.
  - (* 32-bit checksum *)
    destruct rtl; [exfalso; destruct (U5 eq_refl) as [V _]; apply V; cbn [In]; tauto|]. apply len_nat in A. cbn [operands read4]. reads. left_over. reflexivity.
  - (* constants *)
    destruct a as [|t v]; [discriminate|]. cbn [hd] in *. destruct (U3 eq_refl) as [V1 V2]. cbn [operands]. apply len_nat in A. change (t :: v) with ([t] ++ v)%list.
    rewrite <- app_assoc. unfold read_u8 at 1. rewrite (read_all 1 [t]) by reflexivity. cbn [le_val]. rewrite ?N.mul_0_r, ?N.add_0_r.
    rewrite (typed_ok t v r V1 (T _ _ eq_refl)) by lia. rewrite V2. rewrite skip_nil by exact A. cbn [app firstn skipn le_val].
    rewrite ?N.mul_0_r, ?N.add_0_r. unfold number. cbn [andb].
    assert (C : In t [0x10; 0x11; 0x12; 0x13]) by (unfold whole_type, type_signed in V1, V2; cbn [In]; lia).
    cbn [In] in C. decompose [or] C; try contradiction; subst t; reflexivity.
  - (* ranges *)
    destruct a as [|t v]; [discriminate|]. cbn [hd] in *. specialize (U4 eq_refl). cbn [operands]. pose proof (T _ _ eq_refl) as V. apply len_nat in A.
    change (t :: v) with ([t] ++ v)%list.
    rewrite <- app_assoc. unfold read_u8 at 1. rewrite (read_all 1 [t]) by reflexivity. cbn [le_val app firstn]. rewrite ?N.mul_0_r, ?N.add_0_r.
    destruct (whole_type t) eqn:Y.
    + assert (rtl = false) as -> by (destruct rtl; [destruct (U5 eq_refl) as [_ V2]; specialize (V2 eq_refl); discriminate|reflexivity]).
      assert (C : In t [0x10; 0x11; 0x12; 0x13; 0x14; 0x15; 0x16; 0x17]) by (unfold whole_type in Y; cbn [In]; lia). clear U1 U2 U3 U4 U5.
      cbn [In] in C. decompose [or] C; try contradiction; subst t; cbn [value_bytes] in A; cbn [read2]; reads; left_over; signs V; reflexivity.
    + assert (C : In t [0x18; 0x19] \/ value_bytes t = 0).
      { clear -Y U4. unfold whole_type in Y. destruct (N.leb_spec 0x20 t).
        - right. destruct t as [|t]; [lia|]. do 5 try destruct t as [t|t|]; try reflexivity; lia.
        - destruct (N.ltb_spec t 0x10).
          + right. destruct t as [|t]; [reflexivity|]. do 5 try destruct t as [t|t|]; try reflexivity; lia.
          + assert (X : In t [0x18; 0x19; 0x1A; 0x1B; 0x1C; 0x1D; 0x1E; 0x1F]) by (cbn [In]; lia). cbn [In] in X. decompose [or] X; try contradiction; subst t; cbn; auto; congruence. }
      assert (G : forall n, length v = n -> skipn n (v ++ r) = r) by (intros n <-; rewrite skipn_app, skipn_all, Nat.sub_diag; reflexivity).
      destruct C as [C|C].
      * cbn [In] in C. decompose [or] C; try contradiction; subst t; cbn [value_bytes] in A; rewrite G by exact A; reflexivity.
      * rewrite C in A. destruct v; [|discriminate]. cbn [app]. clear -C Y. unfold whole_type in Y.
        destruct t as [|t]; [reflexivity|]. do 5 try destruct t as [t|t|]; try reflexivity; try (cbn in C; discriminate C); cbn in Y; discriminate Y.
  - (* polynomials *)
    destruct a as [|t v]; [discriminate|]. cbn [hd operands]. apply len_nat in A. change (t :: v) with ([t] ++ v)%list. rewrite <- app_assoc. unfold read_u8.
    rewrite (read_all 1 [t]) by reflexivity. cbn [le_val]. rewrite ?N.mul_0_r, ?N.add_0_r. rewrite coefficients_ok by (rewrite A; lia).
    cbn [app firstn skipn le_val]. rewrite ?N.mul_0_r, ?N.add_0_r. reflexivity.
  - (* 16-bit checksum *)
    destruct rtl; [exfalso; destruct (U5 eq_refl) as [V _]; apply V; cbn [In]; tauto|]. apply len_nat in A. cbn [operands read4]. reads. left_over. reflexivity.
  - (* constants to compare with *)
    destruct a as [|t v]; [discriminate|]. cbn [hd] in *. specialize (U2 (or_introl eq_refl)). cbn [operands]. apply len_nat in A. rewrite read_key by assumption.
    change (t :: v) with ([t] ++ v)%list.
    rewrite <- app_assoc. unfold read_u8 at 1. rewrite (read_all 1 [t]) by reflexivity. cbn [le_val app firstn skipn]. rewrite ?N.mul_0_r, ?N.add_0_r.
    assert (C : In t [0x10; 0x11; 0x12; 0x13; 0x14; 0x15; 0x16; 0x17]) by (unfold whole_type in U2; cbn [In]; lia).
    cbn [In] in C. decompose [or] C; try contradiction; subst t; cbn [value_bytes] in A; reads; left_over; reflexivity.
Qed.
